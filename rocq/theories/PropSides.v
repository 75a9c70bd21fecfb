(** C71: what the constants UnchangedL and UnchangedR of
    transform_with_transformed do. *)
From Coq Require Import NArith Arith List Bool Lia.
From Verif Require Import Base Words Flag Bia Node Api Spec SpecJ Trans Transform Joint JointT Reach ReachP ApiP Sets SpecS SetHist Hist Ex PropJoint PropJointT PropSet Sides SidesP.
Import ListNotations.
Open Scope N_scope.

(** For the examples only; the theorems bind their own [Env]. *)
#[local] Existing Instance exE | 100.

(** * As closures *)
(** [turned m right c] (Sides.v): the key lies in [m] and [right] in such places
    that the code meets it with the operands exchanged an odd number of times.
    [early_left] and [early_right]: (Unchanged, Removed) and (Removed,
    Unchanged).  The equations include panics, calls that never return, the
    reduction and the origin, whatever the hashes. *)
Theorem C71_constant_left : forall (E : Env) K V R (KK : Key K) (rdef : R) (rd : R -> R -> R) st r lop rop (m right : trie K V),
  reachable m -> reachable right ->
  map_tt rdef rd st (JUnchangedL r) lop rop m right =
  if branches m right && early_left lop rop then Ret (m, r, Self)
  else map_tt rdef rd st
         (JGeneric (fun e _ => if turned m right (cls (fst e)) then BUnchangedR r else BUnchangedL r) false) lop rop m right.
Proof. intros E K V R KK. exact constant_left. Qed.
Print Assumptions C71_constant_left.
Theorem C71_constant_right : forall (E : Env) K V R (KK : Key K) (rdef : R) (rd : R -> R -> R) st r lop rop (m right : trie K V),
  reachable m -> reachable right ->
  map_tt rdef rd st (JUnchangedR r) lop rop m right =
  if branches m right && early_right lop rop then Ret (right, r, Right)
  else map_tt rdef rd st
         (JGeneric (fun e _ => if turned m right (cls (fst e)) then BUnchangedL r else BUnchangedR r) false) lop rop m right.
Proof. intros E K V R KK. exact constant_right. Qed.
Print Assumptions C71_constant_right.
Theorem C71_set_constant_left : forall (E : Env) K R (KK : Key K) (rdef : R) (rd : R -> R -> R) st r lop rop (s right : tset K),
  reachable s -> reachable right ->
  set_tt rdef rd st (SJUnchangedL r) lop rop s right =
  if branches s right && early_left (transform_of lop) (transform_of rop) then Ret (s, r, Self)
  else set_tt rdef rd st (SJGeneric (fun k _ => if turned s right (cls k) then SBUnchangedR r else SBUnchangedL r) false) lop rop s right.
Proof. intros E K R KK. exact set_constant_left. Qed.
Print Assumptions C71_set_constant_left.
Theorem C71_set_constant_right : forall (E : Env) K R (KK : Key K) (rdef : R) (rd : R -> R -> R) st r lop rop (s right : tset K),
  reachable s -> reachable right ->
  set_tt rdef rd st (SJUnchangedR r) lop rop s right =
  if branches s right && early_right (transform_of lop) (transform_of rop) then Ret (right, r, Right)
  else set_tt rdef rd st (SJGeneric (fun k _ => if turned s right (cls k) then SBUnchangedL r else SBUnchangedR r) false) lop rop s right.
Proof. intros E K R KK. exact set_constant_right. Qed.
Print Assumptions C71_set_constant_right.

(** Where nothing is exchanged the constants are the closures of their names; so
    it is with a map and itself. *)
Theorem C71_as_closures : forall (E : Env) K V R (KK : Key K) (rdef : R) (rd : R -> R -> R) st r lop rop (m right : trie K V),
  reachable m -> reachable right ->
  (forall e e', In e (map_visit m) -> In e' (map_visit right) -> cls (fst e) = cls (fst e') -> turned m right (cls (fst e)) = false) ->
  (branches m right && early_left lop rop = false ->
     map_tt rdef rd st (JUnchangedL r) lop rop m right = map_tt rdef rd st (JGeneric (fun _ _ => BUnchangedL r) false) lop rop m right) /\
  (branches m right && early_right lop rop = false ->
     map_tt rdef rd st (JUnchangedR r) lop rop m right = map_tt rdef rd st (JGeneric (fun _ _ => BUnchangedR r) false) lop rop m right).
Proof. intros E K V R KK. exact constants_as_closures. Qed.
Print Assumptions C71_as_closures.
Theorem C71_self : forall (E : Env) K V (KK : Key K) (m : trie K V) c, turned m m c = false.
Proof. intros E K V KK. exact turned_self. Qed.
Print Assumptions C71_self.

(** Key 1 is a leaf on level 1 here and in a list on level 2 there; keys 4 and 5
    are in lists on levels 1 and 2; key 12 is a leaf on level 1 of both, 24 a
    leaf on levels 2 and 1.  (That the closure keeps the right entry of key 4 is
    the defect of C21_keep_right_refuted.) *)
Definition ex_a : trie key N := ex_of [(1, 1); (5, 1); (4, 1); (12, 1); (4 * 6, 1); (4 * 38, 1)].
Definition ex_b : trie key N := ex_of [(1, 2); (0, 2); (4 * 32, 2); (5, 2); (4, 2); (4 * 33, 2); (12, 2); (4 * 6, 2)].
Lemma ex_a_reach : reachable (E := exE) ex_a.
Proof. unfold ex_a. ex_of_reach. Qed.
Lemma ex_b_reach : reachable (E := exE) ex_b.
Proof. unfold ex_b. ex_of_reach. Qed.
Definition vals (m : trie key N) : list (N * N) := map (fun e => (fst (fst e), snd e)) (map_visit m).
Example C71_constants_ex : reachable (E := exE) ex_a /\ reachable (E := exE) ex_b /\
  map (turned (E := exE) ex_a ex_b) [1; 5; 4; 12; 24] = [true; true; true; false; false] /\
  map (turned (E := exE) ex_b ex_a) [1; 5; 4; 12; 24] = [false; false; false; false; true] /\
  (exists m', map_tt 0 N.add Sequential (JUnchangedL 1) (TRemoved 0) (TRemoved 0) ex_a ex_b = Ret (m', 5, Other) /\
     vals m' = [(1, 2); (4, 2); (5, 2); (12, 1); (24, 1)]) /\
  (exists m', map_tt 0 N.add Sequential (JGeneric (fun _ _ => BUnchangedL 1) false) (TRemoved 0) (TRemoved 0) ex_a ex_b = Ret (m', 5, Other) /\
     vals m' = [(1, 1); (4, 2); (5, 1); (12, 1); (24, 1)]).
Proof.
  split; [exact ex_a_reach|]. split; [exact ex_b_reach|].
  do 2 (split; [vm_compute; reflexivity|]).
  split; eexists; (split; [vm_compute; reflexivity|vm_compute; reflexivity]).
Qed.
(** Sets: the tag of a key tells which operand it came from. *)
Definition ex_sos_of (l : list key) : list (sop key) := map (fun k => SInsert k false) l.
Definition ex_sa : tset key := res_of set_new (srun (E := exE) set_new (ex_sos_of [(4, 1); (8, 1); (40, 1)])).
Definition ex_sb : tset key := res_of set_new (srun (E := exE) set_new (ex_sos_of [(4, 2); (132, 2); (8, 2)])).
Lemma ex_sa_reach : reachable (E := exE) ex_sa.
Proof. eapply (srun_reachable (ex_sos_of [(4, 1); (8, 1); (40, 1)])). vm_compute. reflexivity. Qed.
Lemma ex_sb_reach : reachable (E := exE) ex_sb.
Proof. eapply (srun_reachable (ex_sos_of [(4, 2); (132, 2); (8, 2)])). vm_compute. reflexivity. Qed.
Example C71_set_ex : reachable (E := exE) ex_sa /\ reachable (E := exE) ex_sb /\
  map (turned (E := exE) ex_sa ex_sb) [4; 8] = [true; false] /\
  exists s', set_tt (E := exE) 0 N.add MiddleIndex (SJUnchangedL 1) (STUnchanged 10) (STUnchanged 100) ex_sa ex_sb = Ret (s', 112, Other) /\
    set_visit s' = [(4, 2); (132, 2); (8, 1); (40, 1)].
Proof.
  split; [exact ex_sa_reach|]. split; [exact ex_sb_reach|].
  split; [vm_compute; reflexivity|]. eexists. split; vm_compute; reflexivity.
Qed.

(** * Without colliding hashes *)
(** The constant keeps the entry it names for exactly those keys that do not lie
    on a higher level in the left map; the call returns. *)
Theorem C71_left_entries : forall (E : Env) K V R (KK : Key K) (rdef : R) (rd : R -> R -> R) st r lop rop (m right : trie K V),
  reachable m -> reachable right ->
  (forall e e', In e (map_visit m) -> In e' (map_visit m) -> hash (cls (fst e)) = hash (cls (fst e')) -> cls (fst e) = cls (fst e')) ->
  (forall e e', In e (map_visit right) -> In e' (map_visit right) -> hash (cls (fst e)) = hash (cls (fst e')) -> cls (fst e) = cls (fst e')) ->
  exists m' r' o, map_tt rdef rd st (JUnchangedL r) lop rop m right = Ret (m', r', o) /\
    forall Q (KQ : Key Q) (q : Q) e e', map_find m q = Ret (Ok e) -> map_find right q = Ret (Ok e') ->
      map_find m' q = Ret (Ok (if (level m (cls q) <? level right (cls q)) && negb (branches m right && early_left lop rop) then e' else e)).
Proof. intros E K V R KK. exact constant_left_free. Qed.
Print Assumptions C71_left_entries.
Theorem C71_right_entries : forall (E : Env) K V R (KK : Key K) (rdef : R) (rd : R -> R -> R) st r lop rop (m right : trie K V),
  reachable m -> reachable right ->
  (forall e e', In e (map_visit m) -> In e' (map_visit m) -> hash (cls (fst e)) = hash (cls (fst e')) -> cls (fst e) = cls (fst e')) ->
  (forall e e', In e (map_visit right) -> In e' (map_visit right) -> hash (cls (fst e)) = hash (cls (fst e')) -> cls (fst e) = cls (fst e')) ->
  exists m' r' o, map_tt rdef rd st (JUnchangedR r) lop rop m right = Ret (m', r', o) /\
    forall Q (KQ : Key Q) (q : Q) e e', map_find m q = Ret (Ok e) -> map_find right q = Ret (Ok e') ->
      map_find m' q = Ret (Ok (if (level m (cls q) <? level right (cls q)) && negb (branches m right && early_right lop rop) then e else e')).
Proof. intros E K V R KK. exact constant_right_free. Qed.
Print Assumptions C71_right_entries.
(** Keys 12 and 24 lie on levels 1 and 2 of the left map, 2 and 1 of the right
    one. *)
Definition ex_c : trie key N := ex_of [(12, 1); (4 * 6, 1); (4 * 38, 1)].
Definition ex_d : trie key N := ex_of [(12, 2); (4 * 6, 2); (4 * 35, 2)].
Example C71_entries_ex : reachable (E := exE) ex_c /\ reachable (E := exE) ex_d /\
  (forall e e', In e (map_visit ex_c) -> In e' (map_visit ex_c) -> hash (cls (fst e)) = hash (cls (fst e')) -> cls (fst e) = cls (fst e')) /\
  (forall e e', In e (map_visit ex_d) -> In e' (map_visit ex_d) -> hash (cls (fst e)) = hash (cls (fst e')) -> cls (fst e) = cls (fst e')) /\
  (level (E := exE) ex_c 12, level (E := exE) ex_d 12, level (E := exE) ex_c 24, level (E := exE) ex_d 24) = (1, 2, 2, 1) /\
  exists m', map_tt 0 N.add Sequential (JUnchangedL 1) (TUnchanged 0) (TUnchanged 0) ex_c ex_d = Ret (m', 2, Other) /\
    map_find m' (Num 12) = Ret (Ok (12, 2, 2)) /\ map_find m' (Num 24) = Ret (Ok (24, 1, 1)).
Proof.
  split; [unfold ex_c; ex_of_reach|]. split; [unfold ex_d; ex_of_reach|].
  split; [intros e e'; vm_compute; intuition (subst; try reflexivity; discriminate)|].
  split; [intros e e'; vm_compute; intuition (subst; try reflexivity; discriminate)|].
  split; [vm_compute; reflexivity|]. eexists. split; [vm_compute; reflexivity|]. split; vm_compute; reflexivity.
Qed.

(** * The constants see the history of a map *)
(** Two maps that find, size and visit cannot tell apart, one of which had a
    second entry for a while: the same call keeps the right entry with one and
    the left entry with the other. *)
Definition ex_h1 : trie key N := ex_of [(4, 1)].
Definition ex_h2 : trie key N := res_of map_new (run (E := exE) map_new [OInsert (4, 1) 1 false; OInsert (132, 1) 1 false; ORemove (132, 0)]).
Theorem C71_history_refuted : exists (E : Env) (KK : Key key) (m1 m2 right m1' m2' : trie key N) (k : key) r1 r2 o1 o2 e1 e2,
  reachable m1 /\ reachable m2 /\ reachable right /\
  (forall Q (KQ : Key Q) (q : Q), map_find m1 q = map_find m2 q) /\ map_size m1 = map_size m2 /\ map_visit m1 = map_visit m2 /\
  map_tt 0 N.add Sequential (JUnchangedL 0) (TUnchanged 0) (TUnchanged 0) m1 right = Ret (m1', r1, o1) /\
  map_tt 0 N.add Sequential (JUnchangedL 0) (TUnchanged 0) (TUnchanged 0) m2 right = Ret (m2', r2, o2) /\
  map_find m1' k = Ret (Ok e1) /\ map_find m2' k = Ret (Ok e2) /\ snd e1 <> snd e2.
Proof.
  assert (H1 : reachable (E := exE) ex_h1) by (unfold ex_h1; ex_of_reach).
  assert (H2 : reachable (E := exE) ex_h2).
  { assert (H : exists xs, run (E := exE) map_new [OInsert (4, 1) 1 false; OInsert (132, 1) 1 false; ORemove (132, 0)] = Ret (ex_h2, xs)) by (eexists; vm_compute; reflexivity).
    destruct H as [xs H]. exact (run_reachable _ _ _ H). }
  exists exE, key_key, ex_h1, ex_h2, (ex_of [(4, 2); (132, 2)]). do 2 eexists. exists (4, 0), 0, 0. do 4 eexists.
  split; [exact H1|]. split; [exact H2|]. split; [ex_of_reach|].
  split; [intros Q KQ q; rewrite !map_find_ok by (apply reachable_mwf; assumption); vm_compute; reflexivity|].
  do 2 (split; [vm_compute; reflexivity|]).
  split; [vm_compute; reflexivity|]. split; [vm_compute; reflexivity|].
  split; [vm_compute; reflexivity|]. split; [vm_compute; reflexivity|]. vm_compute. discriminate.
Qed.
Print Assumptions C71_history_refuted.
