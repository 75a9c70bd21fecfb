(** C73: the order of visit, and when maps are the same in every respect. *)
From Coq Require Import NArith Arith List Bool Lia.
From Verif Require Import Base Words Flag Bia Node Api Spec SpecT SpecJ Trans Transform Joint JointT Reach ReachP ApiP Hist Ex PropJoint PropJointT Sides SidesP
  SpecOrder Lean LeanP ShapeP OrderP PropSides PropShape.
Import ListNotations.
Open Scope N_scope.

(** For the examples only; the theorems bind their own [Env]. *)
#[local] Existing Instance exE | 100.

(** * The order *)
(** [earlier b] (SpecOrder.v) compares digits in base [2 ^ b], the lowest first;
    [log_b fw] is the number of bits of a slice. *)
Theorem C73_order : forall (E : Env) K V (KK : Key K) (m : trie K V) l1 e l2 e' l3,
  reachable m -> map_visit m = l1 ++ e :: l2 ++ e' :: l3 ->
  hash (cls (fst e)) = hash (cls (fst e')) \/ earlier (log_b fw) (hash (cls (fst e))) (hash (cls (fst e'))).
Proof. intros E K V KK. exact visit_order. Qed.
Print Assumptions C73_order.
Theorem C73_strict : forall (E : Env), (forall h, ~ earlier (log_b fw) h h) /\
  (forall h1 h2 h3, earlier (log_b fw) h1 h2 -> earlier (log_b fw) h2 h3 -> earlier (log_b fw) h1 h3) /\
  (forall c c', hash c <> hash c' -> earlier (log_b fw) (hash c) (hash c') \/ earlier (log_b fw) (hash c') (hash c)).
Proof. intros E. split; [apply earlier_irrefl|]. split; [apply earlier_trans|exact earlier_total]. Qed.
Print Assumptions C73_strict.
(** Colliding entries stand together. *)
Theorem C73_groups : forall (E : Env) K V (KK : Key K) (m : trie K V) l1 e l2 e' l3,
  reachable m -> map_visit m = l1 ++ e :: l2 ++ e' :: l3 -> hash (cls (fst e)) = hash (cls (fst e')) ->
  forall x, In x l2 -> hash (cls (fst x)) = hash (cls (fst e)).
Proof. intros E K V KK. exact visit_groups. Qed.
Print Assumptions C73_groups.
Definition ex_o : trie key N := ex_of [(12, 1); (6, 2); (4, 3); (132, 4); (7, 5); (0, 6)].
Example C73_order_ex : reachable (E := exE) ex_o /\ keys ex_o = [0; 7; 4; 6; 132; 12] /\
  map (fun e => hash (Env := exE) (cls (fst e))) (map_visit ex_o) = [0; 1; 1; 1; 33; 3] /\ log_b (@fw exE) = 5 /\
  earlier (log_b (@fw exE)) 33 3 /\ ~ earlier (log_b (@fw exE)) 3 33.
Proof.
  split; [unfold ex_o; ex_of_reach|]. do 3 (split; [vm_compute; reflexivity|]).
  assert (H : earlier (log_b (@fw exE)) 33 3) by (exists 0; split; [intros j Hj; lia|reflexivity]).
  split; [exact H|]. intros H'. exact (earlier_irrefl _ _ (earlier_trans _ _ _ _ H H')).
Qed.

(** * Two maps *)
(** Equal keys: the hashes come in the same order, whatever was called to build
    the maps, and whatever the types are. *)
Theorem C73_hashes : forall (E : Env) K V L W (KK : Key K) (KL : Key L) (m : trie K V) (m' : trie L W), reachable m -> reachable m' ->
  (forall c, (exists e, In e (map_visit m) /\ cls (fst e) = c) <-> (exists e, In e (map_visit m') /\ cls (fst e) = c)) ->
  map (fun e => hash (cls (fst e))) (map_visit m) = map (fun e => hash (cls (fst e))) (map_visit m').
Proof. intros E K V L W KK KL. exact same_hashes. Qed.
Print Assumptions C73_hashes.
(** Without collisions so do the keys. *)
Theorem C73_keys : forall (E : Env) K V L W (KK : Key K) (KL : Key L) (m : trie K V) (m' : trie L W), reachable m -> reachable m' ->
  (forall e e', In e (map_visit m) -> In e' (map_visit m) -> hash (cls (fst e)) = hash (cls (fst e')) -> cls (fst e) = cls (fst e')) ->
  (forall c, (exists e, In e (map_visit m) /\ cls (fst e) = c) <-> (exists e, In e (map_visit m') /\ cls (fst e) = c)) ->
  map (fun e => cls (fst e)) (map_visit m) = map (fun e => cls (fst e)) (map_visit m').
Proof. intros E K V L W KK KL. exact same_order. Qed.
Print Assumptions C73_keys.
Theorem C73_visit : forall (E : Env) K V (KK : Key K) (m m' : trie K V), reachable m -> reachable m' ->
  (forall e e', In e (map_visit m) -> In e' (map_visit m) -> hash (cls (fst e)) = hash (cls (fst e')) -> cls (fst e) = cls (fst e')) ->
  (forall k : K, map_find m k = map_find m' k) -> map_visit m = map_visit m'.
Proof. intros E K V KK. exact same_visit. Qed.
Print Assumptions C73_visit.
(** One map inserted in another order, with an entry more that is removed. *)
Definition ex_o1 : trie key N := ex_of [(12, 1); (0, 1); (132, 1); (4, 1)].
Definition ex_os2 : list (op key N) := [OInsert (4, 4) 4 false; OInsert (132, 132) 1 false; OInsert (140, 1) 1 false; OInsert (0, 0) 1 false;
  OInsert (12, 12) 1 false; OInsert (4, 1) 1 true; ORemove (140, 0); OInsert (132, 1) 1 true; OInsert (0, 1) 1 true; OInsert (12, 1) 1 true].
Definition ex_o2 : trie key N := match run (E := exE) map_new ex_os2 with Ret (m, _) => m | _ => map_new end.
Lemma ex_o2_reach : reachable (E := exE) ex_o2.
Proof.
  assert (H : exists xs, run (E := exE) map_new ex_os2 = Ret (ex_o2, xs)) by (eexists; vm_compute; reflexivity). destruct H as [xs H]. exact (run_reachable _ _ _ H).
Qed.
Example C73_visit_ex : reachable (E := exE) ex_o1 /\ reachable (E := exE) ex_o2 /\
  (forall e e', In e (map_visit ex_o1) -> In e' (map_visit ex_o1) -> hash (Env := exE) (cls (fst e)) = hash (Env := exE) (cls (fst e')) -> cls (fst e) = cls (fst e')) /\
  (forall k : key, map_find ex_o1 k = map_find ex_o2 k) /\ keys ex_o1 = [0; 4; 132; 12] /\ keys ex_o2 = [0; 4; 132; 12] /\
  shape_of (E := exE) ex_o1 <> shape_of (E := exE) ex_o2.
Proof.
  assert (H1 : reachable (E := exE) ex_o1) by (unfold ex_o1; ex_of_reach). pose proof ex_o2_reach as H2. split; [exact H1|]. split; [exact H2|].
  split; [intros e e'; vm_compute; intuition (subst; try reflexivity; discriminate)|].
  split; [intros k; rewrite !map_find_ok by (apply reachable_mwf; assumption); vm_compute; reflexivity|].
  do 2 (split; [vm_compute; reflexivity|]). vm_compute. discriminate.
Qed.
(** Colliding keys: the order of insertion shows. *)
Theorem C73_collisions_refuted : exists (E : Env) (KK : Key key) (m m' : trie key N), grown m /\ grown m' /\
  (forall k : key, map_find m k = map_find m' k) /\ map_visit m <> map_visit m'.
Proof.
  exists exE, key_key, (ex_of [(4, 1); (5, 1)]), (ex_of [(5, 1); (4, 1)]).
  assert (H1 : grown (E := exE) (ex_of [(4, 1); (5, 1)])) by ex_of_grown. assert (H2 : grown (E := exE) (ex_of [(5, 1); (4, 1)])) by ex_of_grown.
  split; [exact H1|]. split; [exact H2|]. split; [|vm_compute; discriminate]. intros k.
  rewrite !map_find_ok by (apply reachable_mwf; apply unpruned_reachable; apply grown_unpruned; assumption).
  assert (V1 : map_visit (ex_of [(4, 1); (5, 1)]) = [(5, 1, 1); (4, 1, 1)]) by (vm_compute; reflexivity).
  assert (V2 : map_visit (ex_of [(5, 1); (4, 1)]) = [(4, 1, 1); (5, 1, 1)]) by (vm_compute; reflexivity).
  rewrite V1, V2. destruct k as [c i]. do 2 f_equal. change (cls (c, i)) with c. unfold lookup. cbn [find].
  change (ecls (4, 1, 1)) with 4. change (ecls (5, 1, 1)) with 5. change (@ceqb exE) with N.eqb.
  destruct (N.eqb_spec 4 c) as [<-|H4]; [reflexivity|]. destruct (N.eqb_spec 5 c) as [<-|H5]; reflexivity.
Qed.
Print Assumptions C73_collisions_refuted.

(** * The same map in every respect *)
(** The model has no addresses, so equal tries differ at most in what is
    allocated where: every call answers the same on both. *)
Theorem C73_same_visit : forall (E : Env) K V (KK : Key K) (m m' : trie K V),
  unpruned m -> unpruned m' -> rooted m = rooted m' -> map_visit m = map_visit m' -> m = m'.
Proof. intros E K V KK. exact visit_same. Qed.
Print Assumptions C73_same_visit.
Theorem C73_same_contents : forall (E : Env) K V (KK : Key K) (m m' : trie K V),
  unpruned m -> unpruned m' -> rooted m = rooted m' ->
  (forall e e', In e (map_visit m) -> In e' (map_visit m) -> hash (cls (fst e)) = hash (cls (fst e')) -> cls (fst e) = cls (fst e')) ->
  (forall k : K, map_find m k = map_find m' k) -> m = m'.
Proof. intros E K V KK. exact contents_same. Qed.
Print Assumptions C73_same_contents.
Theorem C73_same_inserted : forall (E : Env) K V (KK : Key K) (m m' : trie K V),
  grown m -> grown m' ->
  (forall e e', In e (map_visit m) -> In e' (map_visit m) -> hash (cls (fst e)) = hash (cls (fst e')) -> cls (fst e) = cls (fst e')) ->
  (forall k : K, map_find m k = map_find m' k) -> m = m'.
Proof. intros E K V KK. exact grown_same. Qed.
Print Assumptions C73_same_inserted.
Definition ex_o3 : trie key N := ex_of [(4, 1); (12, 1); (132, 1); (0, 1)].
Example C73_same_ex : grown (E := exE) ex_o1 /\ grown (E := exE) ex_o3 /\
  (forall e e', In e (map_visit ex_o1) -> In e' (map_visit ex_o1) -> hash (Env := exE) (cls (fst e)) = hash (Env := exE) (cls (fst e')) -> cls (fst e) = cls (fst e')) /\
  (forall k : key, map_find ex_o1 k = map_find ex_o3 k) /\ map_size ex_o3 = 4.
Proof.
  assert (H1 : grown (E := exE) ex_o1) by (unfold ex_o1; ex_of_grown). assert (H3 : grown (E := exE) ex_o3) by (unfold ex_o3; ex_of_grown).
  split; [exact H1|]. split; [exact H3|]. split; [intros e e'; vm_compute; intuition (subst; try reflexivity; discriminate)|].
  split; [|vm_compute; reflexivity].
  intros k; rewrite !map_find_ok by (apply reachable_mwf; apply unpruned_reachable; apply grown_unpruned; assumption); vm_compute; reflexivity.
Qed.
(** A map of which transform leaves one entry, at the root. *)
Definition ex_two : trie key N := ex_of [(4, 1); (12, 2)].
Definition ex_root : trie key N := match map_transform 0 N.add Sequential (TGeneric ex_drop) ex_two with Ret (m', _, _) => m' | _ => map_new end.
Lemma ex_root_unpruned : unpruned (E := exE) ex_root.
Proof.
  assert (HG : grown (E := exE) ex_two) by (unfold ex_two; ex_of_grown).
  assert (H : exists r o, map_transform 0 N.add Sequential (TGeneric ex_drop) ex_two = Ret (ex_root, r, o)) by (do 2 eexists; vm_compute; reflexivity).
  destruct H as (r & o & H). eapply (unp_transform key N key_key); [apply grown_unpruned; exact HG|exact H].
Qed.
(** Neither remove nor a root that is no branch can be allowed. *)
Theorem C73_same_root_refuted : exists (E : Env) (KK : Key key) (m m' : trie key N),
  unpruned m /\ unpruned m' /\ map_visit m = map_visit m' /\ m <> m'.
Proof.
  exists exE, key_key, (ex_of [(4, 1)]), ex_root. assert (H1 : grown (E := exE) (ex_of [(4, 1)])) by ex_of_grown.
  split; [apply grown_unpruned; exact H1|]. split; [exact ex_root_unpruned|]. split; [vm_compute; reflexivity|].
  intros H. apply (f_equal (fun n => match n with MC _ => true | _ => false end)) in H. vm_compute in H. discriminate.
Qed.
Print Assumptions C73_same_root_refuted.
