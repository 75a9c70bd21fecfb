(** C74: the order of visit is the history's. *)
From Coq Require Import NArith Arith List Bool Lia Permutation Sorted.
From Verif Require Import Base Words Flag Bia Node Api Spec SpecT SpecJ Trans Transform Joint JointT Reach ReachP ApiP Hist Ex PropJoint PropJointT Sides SidesP
  SpecOrder Lean LeanP ShapeP OrderP GroupP PropSides PropShape PropOrder.
Import ListNotations.
Open Scope N_scope.

(** For the examples only; the theorems bind their own [Env]. *)
#[local] Existing Instance exE | 100.

(** * One call *)
(** [group h l] (SpecOrder.v): the entries of [l] whose keys have hash [h].  An
    insert, of a new key or in place of an old one, puts the entry before all
    entries it collides with; nothing else moves. *)
Theorem C74_insert : forall (E : Env) K V (KK : Key K) Q (KQ : Key Q) (into : Q -> K) (m : trie K V) (q : Q) v replace m' e prev,
  reachable m -> cls (into q) = cls q -> map_insert into m q v replace = Ret (Ok (m', e, prev)) ->
  forall h, group h (map_visit m') = group h ((into q, v) :: without (cls q) (map_visit m)).
Proof. intros E K V KK Q KQ. exact insert_front. Qed.
Print Assumptions C74_insert.
Theorem C74_remove : forall (E : Env) K V (KK : Key K) Q (KQ : Key Q) (m : trie K V) (q : Q) m' e,
  reachable m -> map_remove m q = Ret (Ok (m', e)) ->
  forall h, group h (map_visit m') = group h (without (cls q) (map_visit m)).
Proof. intros E K V KK Q KQ. exact remove_alike. Qed.
Print Assumptions C74_remove.
(** The new entry comes after all earlier hashes and before the rest. *)
Theorem C74_insert_place : forall (E : Env) K V (KK : Key K) Q (KQ : Key Q) (into : Q -> K) (m : trie K V) (q : Q) v replace m' e prev,
  reachable m -> cls (into q) = cls q -> map_insert into m q v replace = Ret (Ok (m', e, prev)) ->
  exists l1 l2, map_visit m' = l1 ++ (into q, v) :: l2 /\ without (cls q) (map_visit m) = l1 ++ l2 /\
    (forall x, In x l1 -> earlier (log_b fw) (hash (cls (fst x))) (hash (cls q))) /\
    (forall x, In x l2 -> hash (cls (fst x)) = hash (cls q) \/ earlier (log_b fw) (hash (cls q)) (hash (cls (fst x)))).
Proof. intros E K V KK Q KQ. exact insert_visit. Qed.
Print Assumptions C74_insert_place.
Theorem C74_remove_exact : forall (E : Env) K V (KK : Key K) Q (KQ : Key Q) (m : trie K V) (q : Q) m' e,
  reachable m -> map_remove m q = Ret (Ok (m', e)) -> map_visit m' = without (cls q) (map_visit m).
Proof. intros E K V KK Q KQ. exact remove_visit. Qed.
Print Assumptions C74_remove_exact.
(** The same for sets. *)
Theorem C74_set_insert : forall (E : Env) K (KK : Key K) Q (KQ : Key Q) (into : Q -> K) (s : tset K) (q : Q) replace s' k prev,
  reachable s -> cls (into q) = cls q -> set_insert into s q replace = Ret (Ok (s', k, prev)) ->
  forall h, filter (fun x => hash (cls x) =? h) (set_visit s') =
    filter (fun x => hash (cls x) =? h) (into q :: filter (fun x => negb (ceqb (cls x) (cls q))) (set_visit s)).
Proof. intros E K KK Q KQ. exact set_insert_front. Qed.
Print Assumptions C74_set_insert.
Theorem C74_set_remove : forall (E : Env) K (KK : Key K) Q (KQ : Key Q) (s : tset K) (q : Q) s' k,
  reachable s -> set_remove s q = Ret (Ok (s', k)) -> set_visit s' = filter (fun x => negb (ceqb (cls x) (cls q))) (set_visit s).
Proof. intros E K KK Q KQ. exact set_remove_alike. Qed.
Print Assumptions C74_set_remove.
(** 4, 5, 6 and 7 collide.  Replacing 5 moves it to the front; removing 6 leaves
    the others as they stood. *)
Definition ex_g : trie key N := ex_of [(12, 1); (4, 2); (5, 3); (6, 4); (7, 5)].
Definition ex_g1 : trie key N := match map_insert (E := exE) (fun k : key => k) ex_g (5, 9) 8 true with Ret (Ok (m, _, _)) => m | _ => map_new end.
Definition ex_g2 : trie key N := match map_remove (E := exE) ex_g1 (6, 0) with Ret (Ok (m, _)) => m | _ => map_new end.
Example C74_insert_ex : reachable (E := exE) ex_g /\ keys ex_g = [7; 6; 5; 4; 12] /\
  (exists e prev, map_insert (E := exE) (fun k : key => k) ex_g (5, 9) 8 true = Ret (Ok (ex_g1, e, prev))) /\ keys ex_g1 = [5; 7; 6; 4; 12] /\
  (exists e, map_remove (E := exE) ex_g1 (6, 0) = Ret (Ok (ex_g2, e))) /\ keys ex_g2 = [5; 7; 4; 12].
Proof.
  split; [unfold ex_g; ex_of_reach|]. split; [vm_compute; reflexivity|]. split; [do 2 eexists; vm_compute; reflexivity|]. split; [vm_compute; reflexivity|].
  split; [eexists; vm_compute; reflexivity|]. vm_compute. reflexivity.
Qed.

Definition ex_gs : tset key := match map_transmute (E := exE) tt (fun _ _ => tt) (MGeneric (fun e : key * N => KTransmuted (fst e) tt tt)) ex_g with Ret (m, _) => m | _ => map_new end.
Example C74_set_ex : reachable (E := exE) ex_gs /\ map fst (set_visit ex_gs) = [7; 6; 5; 4; 12] /\
  exists s1 s2, set_insert (E := exE) (fun k : key => k) ex_gs (6, 9) true = Ret (Ok (s1, (6, 9), Some (6, 4))) /\ map fst (set_visit s1) = [6; 7; 5; 4; 12] /\
    set_remove (E := exE) s1 (7, 0) = Ret (Ok (s2, (7, 5))) /\ map fst (set_visit s2) = [6; 5; 4; 12].
Proof.
  split.
  - unfold ex_gs. assert (HR : reachable (E := exE) ex_g) by (unfold ex_g; ex_of_reach).
    destruct (map_transmute (E := exE) tt (fun _ _ => tt) (MGeneric (fun e : key * N => KTransmuted (fst e) tt tt)) ex_g) as [[m r]| |] eqn:Hm; try constructor.
    eapply (reach_transmute key N key_key key unit key_key unit tt (fun _ _ => tt) _ ex_g m r HR); [|exact Hm].
    intros e k v r0 _ H. cbn in H. injection H as <- <- <-. reflexivity.
  - split; [vm_compute; reflexivity|]. do 2 eexists. split; [vm_compute; reflexivity|]. split; [vm_compute; reflexivity|]. split; vm_compute; reflexivity.
Qed.

(** * Histories *)
(** [spec_run] (Hist.v) keeps a list with the last inserted entry first.  visit
    shows that list, sorted by hash without moving entries of one hash. *)
Theorem C74_run : forall (E : Env) K V (KK : Key K) (os : list (op K V)) m xs, run map_new os = Ret (m, xs) ->
  forall h, group h (map_visit m) = group h (fst (spec_run [] os)).
Proof. intros E K V KK os m xs. apply run_alike; [constructor|intros h; reflexivity]. Qed.
Print Assumptions C74_run.
Theorem C74_sorted : forall (E : Env) K V (KK : Key K) (os : list (op K V)) m xs, run map_new os = Ret (m, xs) ->
  forall l, StronglySorted (fun e e' => hash (cls (fst e)) = hash (cls (fst e')) \/ earlier (log_b fw) (hash (cls (fst e))) (hash (cls (fst e')))) l ->
  (forall h, group h l = group h (fst (spec_run [] os))) -> map_visit m = l.
Proof. intros E K V KK. exact run_sorted. Qed.
Print Assumptions C74_sorted.
Definition ex_gos : list (op key N) :=
  [OInsert (12, 0) 1 false; OInsert (4, 0) 2 false; OInsert (132, 0) 3 false; OInsert (5, 0) 3 false; OInsert (0, 0) 3 true; OInsert (6, 0) 4 false;
   ORemove (5, 0); OInsert (4, 7) 5 true; OInsert (6, 1) 6 false; OInsert (5, 0) 7 false].
Definition ex_gm : trie key N := res_of map_new (run (E := exE) map_new ex_gos).
Definition ex_gl : list (key * N) := [(0, 0, 3); (5, 0, 7); (4, 7, 5); (6, 0, 4); (132, 0, 3); (12, 0, 1)].
Example C74_run_ex : (exists xs, run (E := exE) map_new ex_gos = Ret (ex_gm, xs)) /\ map_visit ex_gm = ex_gl /\
  fst (spec_run (E := exE) [] ex_gos) = [(5, 0, 7); (4, 7, 5); (6, 0, 4); (0, 0, 3); (132, 0, 3); (12, 0, 1)] /\
  StronglySorted (fun e e' : key * N => hash (Env := exE) (cls (fst e)) = hash (Env := exE) (cls (fst e')) \/
    earlier (log_b (@fw exE)) (hash (Env := exE) (cls (fst e))) (hash (Env := exE) (cls (fst e')))) ex_gl /\
  (forall h, group (E := exE) h ex_gl = group (E := exE) h (fst (spec_run (E := exE) [] ex_gos))).
Proof.
  assert (Hr : exists xs, run (E := exE) map_new ex_gos = Ret (ex_gm, xs)) by (eexists; vm_compute; reflexivity).
  assert (Hv : map_visit ex_gm = ex_gl) by (vm_compute; reflexivity).
  split; [exact Hr|]. split; [exact Hv|]. split; [vm_compute; reflexivity|]. destruct Hr as (xs & Hr). rewrite <- Hv.
  split; [exact (visit_sorted (E := exE) ex_gm (run_reachable ex_gos ex_gm xs Hr))|exact (C74_run exE key N key_key ex_gos ex_gm xs Hr)].
Qed.

(** * Two maps *)
(** The order among colliding entries is all that can differ. *)
Theorem C74_visit : forall (E : Env) K V (KK : Key K) (m m' : trie K V), reachable m -> reachable m' ->
  (forall h, group h (map_visit m) = group h (map_visit m')) -> map_visit m = map_visit m'.
Proof. intros E K V KK. exact alike_visit. Qed.
Print Assumptions C74_visit.
Theorem C74_same : forall (E : Env) K V (KK : Key K) (m m' : trie K V), grown m -> grown m' ->
  (forall h, group h (map_visit m) = group h (map_visit m')) -> m = m'.
Proof. intros E K V KK. exact alike_grown. Qed.
Print Assumptions C74_same.
(** The same collisions in the same order, the rest in another. *)
Definition ex_g3 : trie key N := ex_of [(4, 2); (5, 3); (12, 1); (132, 4)].
Definition ex_g4 : trie key N := ex_of [(132, 4); (4, 2); (12, 1); (5, 3)].
Example C74_same_ex : grown (E := exE) ex_g3 /\ grown (E := exE) ex_g4 /\
  (forall h, group (E := exE) h (map_visit ex_g3) = group (E := exE) h (map_visit ex_g4)) /\ keys ex_g3 = [5; 4; 132; 12].
Proof.
  split; [unfold ex_g3; ex_of_grown|]. split; [unfold ex_g4; ex_of_grown|]. split; [|vm_compute; reflexivity].
  intros h. replace (map_visit ex_g4) with (map_visit ex_g3) by (vm_compute; reflexivity). reflexivity.
Qed.

(** * Calls that cancel or commute *)
(** C14 says this up to the order. *)
Theorem C74_undo : forall (E : Env) K V (KK : Key K) Q (KQ : Key Q) Q' (KQ' : Key Q') (into : Q -> K) (m : trie K V) (q : Q) (q' : Q') v replace m1 e prev m2 e2,
  reachable m -> cls (into q) = cls q -> cls q' = cls q -> map_find m q = Ret (Err NotFound) ->
  map_insert into m q v replace = Ret (Ok (m1, e, prev)) -> map_remove m1 q' = Ret (Ok (m2, e2)) -> map_visit m2 = map_visit m.
Proof. intros E K V KK Q KQ Q' KQ'. exact insert_remove_visit. Qed.
Print Assumptions C74_undo.
Theorem C74_commute : forall (E : Env) K V (KK : Key K) Q1 (KQ1 : Key Q1) Q2 (KQ2 : Key Q2) (into1 : Q1 -> K) (into2 : Q2 -> K) (m : trie K V) (q1 : Q1) (q2 : Q2)
    v1 v2 r1 r2 m1 m2 m12 m21 e1 p1 e2 p2 e12 p12 e21 p21,
  reachable m -> cls (into1 q1) = cls q1 -> cls (into2 q2) = cls q2 -> hash (cls q1) <> hash (cls q2) ->
  map_insert into1 m q1 v1 r1 = Ret (Ok (m1, e1, p1)) -> map_insert into2 m1 q2 v2 r2 = Ret (Ok (m12, e12, p12)) ->
  map_insert into2 m q2 v2 r2 = Ret (Ok (m2, e2, p2)) -> map_insert into1 m2 q1 v1 r1 = Ret (Ok (m21, e21, p21)) -> map_visit m12 = map_visit m21.
Proof. intros E K V KK Q1 KQ1 Q2 KQ2. exact insert_insert_visit. Qed.
Print Assumptions C74_commute.
Theorem C74_commute_removes : forall (E : Env) K V (KK : Key K) Q1 (KQ1 : Key Q1) Q2 (KQ2 : Key Q2) (m : trie K V) (q1 : Q1) (q2 : Q2) m1 m2 m12 m21 e1 e2 e12 e21,
  reachable m -> map_remove m q1 = Ret (Ok (m1, e1)) -> map_remove m1 q2 = Ret (Ok (m12, e12)) ->
  map_remove m q2 = Ret (Ok (m2, e2)) -> map_remove m2 q1 = Ret (Ok (m21, e21)) -> map_visit m12 = map_visit m21.
Proof. intros E K V KK Q1 KQ1 Q2 KQ2. exact remove_remove_visit. Qed.
Print Assumptions C74_commute_removes.
Example C74_undo_ex : reachable (E := exE) ex_g1 /\ map_find (E := exE) ex_g1 (133, 0) = Ret (Err NotFound) /\
  (exists m1 e prev m2 e2, map_insert (E := exE) (fun k : key => k) ex_g1 (133, 1) 8 false = Ret (Ok (m1, e, prev)) /\
     map_remove (E := exE) m1 (133, 0) = Ret (Ok (m2, e2)) /\ keys m2 = [5; 7; 6; 4; 12]) /\
  hash (Env := exE) 133 <> hash (Env := exE) 6 /\
  (exists m1 e1 p1 m12 e12 p12, map_insert (E := exE) (fun k : key => k) ex_g1 (133, 1) 8 false = Ret (Ok (m1, e1, p1)) /\
     map_insert (E := exE) (fun k : key => k) m1 (6, 1) 8 true = Ret (Ok (m12, e12, p12)) /\ keys m12 = [6; 5; 7; 4; 133; 12]) /\
  (exists m2 e2 p2 m21 e21 p21, map_insert (E := exE) (fun k : key => k) ex_g1 (6, 1) 8 true = Ret (Ok (m2, e2, p2)) /\
     map_insert (E := exE) (fun k : key => k) m2 (133, 1) 8 false = Ret (Ok (m21, e21, p21)) /\ keys m21 = [6; 5; 7; 4; 133; 12]) /\
  (exists m1 e1 m12 e12 m2 e2 m21 e21, map_remove (E := exE) ex_g1 (5, 0) = Ret (Ok (m1, e1)) /\ map_remove (E := exE) m1 (6, 0) = Ret (Ok (m12, e12)) /\
     map_remove (E := exE) ex_g1 (6, 0) = Ret (Ok (m2, e2)) /\ map_remove (E := exE) m2 (5, 0) = Ret (Ok (m21, e21)) /\ keys m21 = [7; 4; 12]).
Proof.
  split.
  - assert (HR : reachable (E := exE) ex_g) by (unfold ex_g; ex_of_reach). destruct C74_insert_ex as (_ & _ & (e & prev & Hi) & _).
    exact (reach_insert key N key_key key key_key (fun k => k) ex_g (5, 9) 8 true ex_g1 e prev HR eq_refl Hi).
  - split; [vm_compute; reflexivity|]. split; [do 5 eexists; do 2 (split; [vm_compute; reflexivity|]); vm_compute; reflexivity|]. split; [vm_compute; discriminate|].
    split; [do 6 eexists; do 2 (split; [vm_compute; reflexivity|]); vm_compute; reflexivity|].
    split; [do 6 eexists; do 2 (split; [vm_compute; reflexivity|]); vm_compute; reflexivity|].
    do 8 eexists. do 4 (split; [vm_compute; reflexivity|]). vm_compute. reflexivity.
Qed.
(** With equal hashes the later one comes first. *)
Theorem C74_commute_refuted : exists (E : Env) (KK : Key key) (m m12 m21 m1 m2 : trie key N) (q1 q2 : key) e1 p1 e2 p2 e12 p12 e21 p21,
  reachable m /\ cls q1 <> cls q2 /\
  map_insert (fun k => k) m q1 1 false = Ret (Ok (m1, e1, p1)) /\ map_insert (fun k => k) m1 q2 1 false = Ret (Ok (m12, e12, p12)) /\
  map_insert (fun k => k) m q2 1 false = Ret (Ok (m2, e2, p2)) /\ map_insert (fun k => k) m2 q1 1 false = Ret (Ok (m21, e21, p21)) /\
  map_visit m12 <> map_visit m21.
Proof.
  exists exE, key_key, map_new. do 4 eexists. exists (4, 0), (5, 0). do 8 eexists. split; [constructor|]. split; [vm_compute; discriminate|].
  do 4 (split; [vm_compute; reflexivity|]). vm_compute. discriminate.
Qed.
Print Assumptions C74_commute_refuted.
