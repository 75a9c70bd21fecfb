(** C21, C22, C26, C28, C31, C34, C39, C42: transform_with_transformed. *)
From Coq Require Import NArith Arith List Bool Lia Permutation.
From Verif Require Import Base Words Flag Bia Node Api Spec Trans Transform SpecT LoopP Joint JointT SpecJ Reach ReachP MapP TransMapP
  JointMapP JointNodeP JointTP JointTApiP JointTMapP Hist Ex.
Import ListNotations.
Open Scope N_scope.

(** For the examples only; the theorems bind their own [Env]. *)
#[local] Existing Instance exE | 100.

(** Maps from lists: key [k] with tag and value [v]. *)
Definition ex_os_of (l : list (N * N)) : list (op key N) := map (fun p => OInsert (fst p, snd p) (snd p) false) l.
Definition ex_of (l : list (N * N)) : trie key N := res_of map_new (run (E := exE) map_new (ex_os_of l)).
Lemma ex_of_reach l xs : run (E := exE) map_new (ex_os_of l) = Ret (ex_of l, xs) -> reachable (E := exE) (ex_of l).
Proof. apply run_reachable. Qed.
Ltac ex_of_reach := eapply ex_of_reach; vm_compute; reflexivity.

(** A map that shares keys, hashes and slices with [ex_m], with two colliding
    keys of hash 0. *)
Definition ex_t : trie key N := ex_of [(1, 100); (3, 103); (4 * 2 ^ 5, 200); (4 * 2 ^ 10 + 1, 201); (4 * 11, 300); (4 * 9, 301)].
Lemma ex_t_reach : reachable (E := exE) ex_t.
Proof. unfold ex_t. ex_of_reach. Qed.

(** The example operations: as in PropJoint.v. *)
Definition ex_jboth (e e' : key * N) : bres N N :=
  if snd e =? 17 then BTransformed (snd e + snd e') 1
  else if snd e =? 13 then BDropped 10 else BUnchangedLR 100.
Definition ex_jlop (e : key * N) : vres N N := if N.even (snd e) then VUnchanged 1000 else VDropped 10000.
Definition ex_jrop (e : key * N) : vres N N := if N.even (snd e) then VDropped 100000 else VTransformed (snd e + 1) 1000000.

(** * C21 *)
(** [b_to] (SpecJ.v): what the result of both_op allows.  [tame] (SpecJ.v)
    restricts the operations where hashes collide, [one_sided] are the
    constants UnchangedL and UnchangedR.  Missing from the full claim: those
    two restrictions; the refutations below show that both are needed. *)
Theorem C21_transform_with_transformed_partial : forall (E : Env) K V R (KK : Key K) (rdef : R) (rd : R -> R -> R) st
    both lop rop (m right : trie K V) m' r o,
  reachable m -> reachable right ->
  tame both lop rop (map_visit m) (map_visit right) -> ~ one_sided both ->
  map_tt rdef rd st both lop rop m right = Ret (m', r, o) ->
  (exists fB, is_merge fB (fun e => t_to (tcall lop e) e) (fun e' => t_to (tcall rop e') e') m right m' /\
     forall e e', In e (map_visit m) -> In e' (map_visit right) -> cls (fst e) = cls (fst e') -> b_to (jcall both e e') e e' (fB e e')) /\
  (o = Self -> m' = m) /\ (o = Right -> m' = right).
Proof. intros E K V R KK. exact tt_exact. Qed.
Print Assumptions C21_transform_with_transformed_partial.

(** Maps without colliding hashes: every operation but the one-sided
    constants; the call returns. *)
Theorem C21_collision_free_partial : forall (E : Env) K V R (KK : Key K) (rdef : R) (rd : R -> R -> R) st
    both lop rop (m right : trie K V),
  reachable m -> reachable right ->
  (forall e e', In e (map_visit m) -> In e' (map_visit m) -> hash (cls (fst e)) = hash (cls (fst e')) -> cls (fst e) = cls (fst e')) ->
  (forall e e', In e (map_visit right) -> In e' (map_visit right) -> hash (cls (fst e)) = hash (cls (fst e')) -> cls (fst e) = cls (fst e')) ->
  ~ one_sided both ->
  exists m' r o, map_tt rdef rd st both lop rop m right = Ret (m', r, o) /\
    (exists fB, is_merge fB (fun e => t_to (tcall lop e) e) (fun e' => t_to (tcall rop e') e') m right m' /\
     forall e e', In e (map_visit m) -> In e' (map_visit right) -> cls (fst e) = cls (fst e') -> b_to (jcall both e e') e e' (fB e e')).
Proof. intros E K V R KK. exact tt_collision_free. Qed.
Print Assumptions C21_collision_free_partial.

(** The one-sided constants keep one of the two entries. *)
Theorem C21_one_sided_partial : forall (E : Env) K V R (KK : Key K) (rdef : R) (rd : R -> R -> R) st
    both lop rop (m right : trie K V) m' r o,
  reachable m -> reachable right ->
  tame both lop rop (map_visit m) (map_visit right) -> one_sided both ->
  map_tt rdef rd st both lop rop m right = Ret (m', r, o) ->
  (exists fB, is_merge fB (fun e => t_to (tcall lop e) e) (fun e' => t_to (tcall rop e') e') m right m' /\
     forall e e', In e (map_visit m) -> In e' (map_visit right) -> cls (fst e) = cls (fst e') -> fB e e' = Some e \/ fB e e' = Some e') /\
  (o = Self -> m' = m) /\ (o = Right -> m' = right).
Proof. intros E K V R KK. exact tt_one_sided. Qed.
Print Assumptions C21_one_sided_partial.

Lemma ex_tame ln lr : tame (E := exE) (JGeneric ex_jboth false) (TGeneric ex_jlop) (TGeneric ex_jrop) ln lr.
Proof.
  assert (Hr : never_stays (TGeneric ex_jrop)).
  { intros e. unfold tcall, ex_jrop. destruct (N.even (snd e)); exact (fun H => H). }
  apply tame_impartial.
  - intros e e'. unfold jcall, ex_jboth. destruct (snd e =? 17), (snd e =? 13); exact I.
  - right. exact Hr.
  - left. intros e e' H. destruct (Hr e H).
Qed.
Example C21_transform_with_transformed_ex : reachable (E := exE) ex_m /\ reachable (E := exE) ex_t /\
  tame (E := exE) (JGeneric ex_jboth false) (TGeneric ex_jlop) (TGeneric ex_jrop) (map_visit ex_m) (map_visit ex_t) /\
  ~ one_sided (JGeneric (A := key * N) ex_jboth false) /\
  exists m', map_tt 0 N.add MiddleIndex (JGeneric ex_jboth false) (TGeneric ex_jlop) (TGeneric ex_jrop) ex_m ex_t = Ret (m', 2113111, Other) /\
    map_visit m' = [(3, 103, 104); (1, 1, 117); (2, 0, 12); (0, 0, 10); (4097, 201, 202); (4096, 0, 14); (36, 0, 18)] /\
    map_size m' = 7 /\ map_find m' (Num 128) = Ret (Err NotFound) /\ map_find m' (Num 1) = Ret (Ok (1, 1, 117)).
Proof.
  split; [exact ex_reach|]. split; [exact ex_t_reach|]. split; [apply ex_tame|]. split; [exact (fun H => H)|].
  eexists. split; [vm_compute; reflexivity|]. vm_compute. auto.
Qed.
(** Without collisions: keep the left, keep the right, and new values. *)
Definition ex_p (e e' : key * N) : bres N N :=
  if fst (fst e) =? 4 then BUnchangedL 1 else if fst (fst e) =? 8 then BUnchangedR 1 else BTransformed (snd e + snd e') 1.
Example C21_collision_free_ex :
  let m := ex_of [(4, 1); (8, 1); (132, 1); (12, 1)] in let right := ex_of [(4, 2); (8, 2); (132, 2); (16, 2)] in
  reachable (E := exE) m /\ reachable (E := exE) right /\
  (forall e e', In e (map_visit m) -> In e' (map_visit m) -> hash (cls (fst e)) = hash (cls (fst e')) -> cls (fst e) = cls (fst e')) /\
  (forall e e', In e (map_visit right) -> In e' (map_visit right) -> hash (cls (fst e)) = hash (cls (fst e')) -> cls (fst e) = cls (fst e')) /\
  exists m' r, map_tt 0 N.add Sequential (JGeneric ex_p false) (TUnchanged 0) (TUnchanged 0) m right = Ret (m', r, Other) /\
    map_visit m' = [(4, 1, 1); (132, 1, 3); (8, 2, 2); (12, 1, 1); (16, 2, 2)].
Proof.
  cbv zeta. split; [ex_of_reach|]. split; [ex_of_reach|]. split; [|split].
  - intros e e'. vm_compute. intuition (subst; try reflexivity; discriminate).
  - intros e e'. vm_compute. intuition (subst; try reflexivity; discriminate).
  - do 2 eexists. split; [vm_compute; reflexivity|]. vm_compute. reflexivity.
Qed.

(** The constant UnchangedL keeps the right entry where a leaf meets a branch,
    even without collisions: flipping the operation does not flip it. *)
Theorem C21_unchanged_left_refuted : exists (E : Env) (KK : Key key) (m right m' : trie key N) (q : key) e e' r o,
  reachable m /\ reachable right /\
  map_tt 0 N.add Sequential (JUnchangedL 0) (TUnchanged 0) (TUnchanged 0) m right = Ret (m', r, o) /\
  map_find m q = Ret (Ok e) /\ map_find right q = Ret (Ok e') /\ snd e <> snd e' /\
  map_find m' q = Ret (Ok e') /\ m' = right.
Proof.
  exists exE, key_key, (ex_of [(4, 1)]), (ex_of [(4, 2); (132, 2)]), (ex_of [(4, 2); (132, 2)]), (4, 0), (4, 1, 1), (4, 2, 2), 0, Right.
  split; [ex_of_reach|]. split; [ex_of_reach|]. vm_compute. repeat (split; [reflexivity || discriminate|]). reflexivity.
Qed.
Print Assumptions C21_unchanged_left_refuted.
Theorem C21_unchanged_right_refuted : exists (E : Env) (KK : Key key) (m right m' : trie key N) (q : key) e e' r o,
  reachable m /\ reachable right /\
  map_tt 0 N.add Sequential (JUnchangedR 0) (TUnchanged 0) (TUnchanged 0) m right = Ret (m', r, o) /\
  map_find m q = Ret (Ok e) /\ map_find right q = Ret (Ok e') /\ snd e <> snd e' /\
  map_find m' q = Ret (Ok e).
Proof.
  exists exE, key_key, (ex_of [(4, 1)]), (ex_of [(4, 2); (132, 2)]).
  eexists. exists (4, 0), (4, 1, 1), (4, 2, 2), 0, Other.
  split; [ex_of_reach|]. split; [ex_of_reach|]. split; [vm_compute; reflexivity|].
  vm_compute. repeat (split; [reflexivity || discriminate|]). reflexivity.
Qed.
Print Assumptions C21_unchanged_right_refuted.

(** Colliding keys, and closures that keep the right entry. *)
Definition keep_right (e e' : key * N) : bres N N := BUnchangedR 0.
Theorem C21_keep_right_refuted : exists (E : Env) (KK : Key key) (m right m' : trie key N) (q : key) e e' r o,
  reachable m /\ reachable right /\
  map_tt 0 N.add Sequential (JGeneric keep_right false) (TUnchanged 0) (TUnchanged 0) m right = Ret (m', r, o) /\
  map_find m q = Ret (Ok e) /\ map_find right q = Ret (Ok e') /\ snd e <> snd e' /\
  map_find m' q = Ret (Ok e).
Proof.
  exists exE, key_key, (ex_of [(0, 1); (1, 1)]), (ex_of [(0, 2); (1, 2)]).
  eexists. exists (1, 0), (1, 1, 1), (1, 2, 2), 0, Other.
  split; [ex_of_reach|]. split; [ex_of_reach|]. split; [vm_compute; reflexivity|].
  vm_compute. repeat (split; [reflexivity || discriminate|]). reflexivity.
Qed.
Print Assumptions C21_keep_right_refuted.
(** The same key twice: the result has size 3 although the two maps have two
    keys between them. *)
Theorem C21_duplicate_refuted : exists (E : Env) (KK : Key key) (m right m' : trie key N) r o,
  reachable m /\ reachable right /\
  map_tt 0 N.add Sequential (JGeneric keep_right false) (TUnchanged 0) (TUnchanged 0) m right = Ret (m', r, o) /\
  (forall e, In e (map_visit m ++ map_visit right) -> fst (fst e) = 0 \/ fst (fst e) = 1) /\
  map_size m' = 3 /\ In (0, 1, 1) (map_visit m') /\ In (0, 2, 2) (map_visit m').
Proof.
  exists exE, key_key, (ex_of [(0, 1); (1, 1)]), (ex_of [(0, 2)]). eexists. exists 0, Other.
  split; [ex_of_reach|]. split; [ex_of_reach|]. split; [vm_compute; reflexivity|].
  split; [intros e; vm_compute; intuition (subst; auto)|]. vm_compute. auto 10.
Qed.
Print Assumptions C21_duplicate_refuted.
(** An entry that left_op drops is kept. *)
Definition drop_0 (e : key * N) : vres N N := if fst (fst e) =? 0 then VDropped 0 else VUnchanged 0.
Theorem C21_dropped_refuted : exists (E : Env) (KK : Key key) (m right m' : trie key N) (q : key) e r o,
  reachable m /\ reachable right /\
  map_tt 0 N.add Sequential (JUnchangedLR 0) (TGeneric drop_0) (TUnchanged 0) m right = Ret (m', r, o) /\
  map_find m q = Ret (Ok e) /\ map_find right q = Ret (Err NotFound) /\ drop_0 e = VDropped 0 /\
  map_find m' q = Ret (Ok e).
Proof.
  exists exE, key_key, (ex_of [(0, 1); (1, 1)]), (ex_of [(3, 2)]). eexists. exists (0, 0), (0, 1, 1), 0, Other.
  split; [ex_of_reach|]. split; [ex_of_reach|]. split; [vm_compute; reflexivity|]. vm_compute. auto 10.
Qed.
Print Assumptions C21_dropped_refuted.
(** A transformed value is lost: the old one is still there. *)
Definition double_1 (e e' : key * N) : bres N N := if fst (fst e) =? 1 then BTransformed (snd e + snd e') 0 else BUnchangedR 0.
Theorem C21_transformed_refuted : exists (E : Env) (KK : Key key) (m right m' : trie key N) (q : key) e e' r o,
  reachable m /\ reachable right /\
  map_tt 0 N.add Sequential (JGeneric double_1 false) (TUnchanged 0) (TUnchanged 0) m right = Ret (m', r, o) /\
  map_find m q = Ret (Ok e) /\ map_find right q = Ret (Ok e') /\ double_1 e e' = BTransformed 3 0 /\
  map_find m' q = Ret (Ok e) /\ snd e = 1.
Proof.
  exists exE, key_key, (ex_of [(0, 1); (1, 1)]), (ex_of [(0, 2); (1, 2)]).
  eexists. exists (1, 0), (1, 1, 1), (1, 2, 2), 0, Other.
  split; [ex_of_reach|]. split; [ex_of_reach|]. split; [vm_compute; reflexivity|].
  vm_compute. auto 10.
Qed.
Print Assumptions C21_transformed_refuted.
(** The call panics. *)
Theorem C21_panic_refuted : exists (E : Env) (KK : Key key) (m right : trie key N),
  reachable m /\ reachable right /\ map_size m = 2 /\ map_size right = 2 /\
  map_tt 0 N.add Sequential (JGeneric keep_right false) (TUnchanged 0) (TUnchanged 0) m right = Panic.
Proof.
  exists exE, key_key, (ex_of [(0, 1); (1, 1)]), (ex_of [(1, 2); (3, 2)]).
  split; [ex_of_reach|]. split; [ex_of_reach|]. vm_compute. auto.
Qed.
Print Assumptions C21_panic_refuted.

(** * C22 *)
Theorem C22_reduction_tt : forall (E : Env) K V R (KK : Key K) (rdef : R) (rd : R -> R -> R) st
    both f h (m right : trie K V) m' r o,
  reachable m -> reachable right ->
  tame both (TGeneric f) (TGeneric h) (map_visit m) (map_visit right) ->
  monoid rdef rd -> (forall a b, rd a b = rd b a) ->
  map_tt rdef rd st both (TGeneric f) (TGeneric h) m right = Ret (m', r, o) ->
  r = fold_right rd rdef (merged_reds (fun e e' => b_red (jcall both e e')) (fun e => t_red (f e)) (fun e' => t_red (h e'))
        (map_visit m) (map_visit right)).
Proof. intros E K V R KK. exact tt_reduction. Qed.
Print Assumptions C22_reduction_tt.
(** The example of C21 returns 2113111. *)
Example C22_reduction_tt_ex :
  fold_right N.add 0 (merged_reds (fun e e' => b_red (ex_jboth e e')) (fun e => t_red (ex_jlop e)) (fun e' => t_red (ex_jrop e'))
    (map_visit ex_m) (map_visit ex_t)) = 2113111.
Proof. vm_compute. reflexivity. Qed.

(** * C28 *)
(** [tt_short] (JointT.v) are the constant operations for which two branches
    are not traversed. *)
Theorem C28_terminates_tt : forall (E : Env) K V R (KK : Key K) (rdef : R) (rd : R -> R -> R) st
    both lop rop (m right : trie K V),
  reachable m -> reachable right -> tame both lop rop (map_visit m) (map_visit right) ->
  ((forall h, (cnt h (map_visit m) <= 1 \/ cnt h (map_visit right) <= 1 \/
               cnt h (map_visit m) = 2 /\ cnt h (map_visit right) = 2)%nat) ->
     exists m' r o, map_tt rdef rd st both lop rop m right = Ret (m', r, o)) /\
  (tt_short (K := K) (V := V) both lop rop = None ->
   (exists h, (3 <= cnt h (map_visit m))%nat /\ (3 <= cnt h (map_visit right))%nat) ->
     map_tt rdef rd st both lop rop m right = Diverge) /\
  map_tt rdef rd st both lop rop m right <> Panic.
Proof. intros E K V R KK. exact tt_returns. Qed.
Print Assumptions C28_terminates_tt.
Definition slow_env_tt (n : nat) (Hn : (3 <= n)%nat) : Env.
Proof.
  refine {| C := N; ceqb := N.eqb; hash := fun _ => 0; hw := W64; fw := W32; checked := false; fuel := n; fuel_ge := Hn |}.
  - intros a b. apply N.eqb_eq.
  - intros c. reflexivity.
Defined.
Definition slow_key_tt n Hn : @Key (slow_env_tt n Hn) N := fun k => k.
(** The union of a set of three colliding keys with itself never returns. *)
Theorem C28_terminates_tt_refuted : forall n, (3 <= n)%nat -> exists (E : Env) (KK : Key N) (m : trie N N),
  fuel = n /\ reachable m /\ map_size m = 3 /\
  map_tt 0 N.add Sequential (JUnchangedLR 0) (TUnchanged 0) (TUnchanged 0) m m = Diverge.
Proof.
  intros n Hn. exists (slow_env_tt n Hn), (slow_key_tt n Hn).
  set (os := [OInsert 0 0 false; OInsert 1 1 false; OInsert 2 2 false]).
  destruct (run (E := slow_env_tt n Hn) (KK := slow_key_tt n Hn) map_new os) as [[m xs]| |] eqn:Hm; [|vm_compute in Hm; discriminate..].
  exists m. pose proof (run_reachable (E := slow_env_tt n Hn) os m xs Hm) as HR.
  assert (Hs : map_size m = 3 /\ cnt (E := slow_env_tt n Hn) (KK := slow_key_tt n Hn) 0 (map_visit m) = 3%nat).
  { revert Hm. vm_compute. intros [= <- _]. auto. }
  split; [reflexivity|]. split; [exact HR|]. split; [apply Hs|]. destruct Hs as [_ Hs].
  apply (tt_returns (E := slow_env_tt n Hn) (KK := slow_key_tt n Hn) 0 N.add Sequential (JUnchangedLR 0) (TUnchanged 0) (TUnchanged 0) m m HR HR).
  - apply tame_impartial; [intros e e'; exact I|left; apply steady_unchanged|left; apply steady_unchanged].
  - reflexivity.
  - exists 0. rewrite Hs. split; apply le_n.
Qed.
Print Assumptions C28_terminates_tt_refuted.
Example C28_terminates_tt_ex : reachable (E := exE) ex_m /\ reachable (E := exE) ex_t /\
  cnt 0 (map_visit ex_m) = 3%nat /\ cnt 0 (map_visit ex_t) = 2%nat /\
  map_tt 0 N.add Sequential (JUnchangedLR 0) (TUnchanged 0) (TUnchanged 0) ex_m ex_m = Diverge /\
  exists m' r, map_tt 0 N.add Sequential (JUnchangedLR 0) (TUnchanged 0) (TUnchanged 0) ex_m ex_t = Ret (m', r, Other).
Proof.
  split; [exact ex_reach|]. split; [exact ex_t_reach|]. split; [vm_compute; reflexivity|]. split; [vm_compute; reflexivity|].
  split; [vm_compute; reflexivity|]. do 2 eexists. vm_compute. reflexivity.
Qed.

(** * C26 *)
(** [has m q] (JointTMapP.v): find succeeds.  [shared m right]: the number of
    entries of [m] whose key [right] has.  Sets are maps with values [unit]; the
    theorems hold for maps as well. *)
Theorem C26_union : forall (E : Env) K V R (KK : Key K) (rdef : R) (rd : R -> R -> R) st rb rl rr (m right : trie K V) m' r o,
  reachable m -> reachable right ->
  map_tt rdef rd st (JUnchangedLR rb) (TUnchanged rl) (TUnchanged rr) m right = Ret (m', r, o) ->
  reachable m' /\ (forall Q (KQ : Key Q) (q : Q), has m' q = has m q || has right q) /\
  map_size m' + shared m right = map_size m + map_size right /\
  (forall x, In x (map_visit m') -> In x (map_visit m) \/ In x (map_visit right)).
Proof. intros E K V R KK. exact tt_union. Qed.
Print Assumptions C26_union.
Theorem C26_intersection : forall (E : Env) K V R (KK : Key K) (rdef : R) (rd : R -> R -> R) st rb rl rr (m right : trie K V) m' r o,
  reachable m -> reachable right ->
  map_tt rdef rd st (JUnchangedLR rb) (TRemoved rl) (TRemoved rr) m right = Ret (m', r, o) ->
  reachable m' /\ (forall Q (KQ : Key Q) (q : Q), has m' q = has m q && has right q) /\
  map_size m' = shared m right /\
  (forall x, In x (map_visit m') -> In x (map_visit m) \/ In x (map_visit right)).
Proof. intros E K V R KK. exact tt_intersection. Qed.
Print Assumptions C26_intersection.
Theorem C26_difference : forall (E : Env) K V R (KK : Key K) (rdef : R) (rd : R -> R -> R) st rb rl rr (m right : trie K V) m' r o,
  reachable m -> reachable right ->
  map_tt rdef rd st (JRemoved rb) (TUnchanged rl) (TRemoved rr) m right = Ret (m', r, o) ->
  reachable m' /\ (forall Q (KQ : Key Q) (q : Q), has m' q = has m q && negb (has right q)) /\
  map_size m' + shared m right = map_size m /\
  (forall x, In x (map_visit m') -> In x (map_visit m) \/ In x (map_visit right)).
Proof. intros E K V R KK. exact tt_difference. Qed.
Print Assumptions C26_difference.
Theorem C26_symmetric_difference : forall (E : Env) K V R (KK : Key K) (rdef : R) (rd : R -> R -> R) st rb rl rr (m right : trie K V) m' r o,
  reachable m -> reachable right ->
  map_tt rdef rd st (JRemoved rb) (TUnchanged rl) (TUnchanged rr) m right = Ret (m', r, o) ->
  reachable m' /\ (forall Q (KQ : Key Q) (q : Q), has m' q = xorb (has m q) (has right q)) /\
  map_size m' + 2 * shared m right = map_size m + map_size right /\
  (forall x, In x (map_visit m') -> In x (map_visit m) \/ In x (map_visit right)).
Proof. intros E K V R KK. exact tt_symmetric_difference. Qed.
Print Assumptions C26_symmetric_difference.
Example C26_ex : reachable (E := exE) ex_m /\ reachable (E := exE) ex_t /\
  map_size ex_m = 7 /\ map_size ex_t = 6 /\ shared ex_m ex_t = 3 /\
  (exists m' r o, map_tt 0 N.add Sequential (JUnchangedLR 0) (TUnchanged 0) (TUnchanged 0) ex_m ex_t = Ret (m', r, o) /\
     map_size m' = 10 /\ has m' (Num 3) = true /\ has m' (Num 0) = true /\ has m' (Num 5) = false) /\
  (exists m' r o, map_tt 0 N.add Sequential (JUnchangedLR 0) (TRemoved 0) (TRemoved 0) ex_m ex_t = Ret (m', r, o) /\
     map_size m' = 3 /\ has m' (Num 3) = false /\ has m' (Num 1) = true) /\
  (exists m' r o, map_tt 0 N.add Sequential (JRemoved 0) (TUnchanged 0) (TRemoved 0) ex_m ex_t = Ret (m', r, o) /\
     map_size m' = 4 /\ has m' (Num 1) = false /\ has m' (Num 0) = true) /\
  (exists m' r o, map_tt 0 N.add Sequential (JRemoved 0) (TUnchanged 0) (TUnchanged 0) ex_m ex_t = Ret (m', r, o) /\
     map_size m' = 7 /\ has m' (Num 1) = false /\ has m' (Num 3) = true).
Proof.
  split; [exact ex_reach|]. split; [exact ex_t_reach|]. split; [vm_compute; reflexivity|]. split; [vm_compute; reflexivity|].
  split; [vm_compute; reflexivity|].
  split; [|split; [|split]]; do 3 eexists; (split; [vm_compute; reflexivity|]); vm_compute; auto.
Qed.

(** * C31 *)
Theorem C31_flip_partial : forall K V R (op : joint_op (K * V) V R) e e', ~ one_sided op ->
  jcall (jflip op) e' e = bres_flip (jcall op e e').
Proof.
  intros K V R op e e' Hn. destruct op as [f b| | | |]; cbn in *; try contradiction; try reflexivity; try (exfalso; apply Hn; exact I).
  destruct b; cbn; [destruct (f e' e); reflexivity|reflexivity].
Qed.
Print Assumptions C31_flip_partial.
(** Exactly the one-sided constants fail. *)
Theorem C31_flip_exact_partial : forall K V R (op : joint_op (K * V) V R) e e',
  jcall (jflip op) e' e = bres_flip (jcall op e e') <-> ~ one_sided op.
Proof.
  intros K V R op e e'. split; [|apply C31_flip_partial]. destruct op; cbn; intros H Hn; try contradiction; discriminate.
Qed.
Print Assumptions C31_flip_exact_partial.
Theorem C31_flip_refuted : exists (op : joint_op (key * N) N N) e e', jcall (jflip op) e' e <> bres_flip (jcall op e e').
Proof. exists (JUnchangedL 0), (0, 0, 1), (0, 1, 2). discriminate. Qed.
Print Assumptions C31_flip_refuted.
(** The flips of the other families. *)
Theorem C31_flip_transform : forall A B V R (op : transform_op (A * B) V R) a b, tcall (tflip op) (b, a) = tcall op (a, b).
Proof. intros A B V R. exact tcall_flip. Qed.
Print Assumptions C31_flip_transform.
Theorem C31_flip_transmute : forall A B S X R (op : transmute_op (A * B) S X R) a b, mcall (mflip op) (b, a) = mcall op (a, b).
Proof. intros A B S X R. exact mcall_flip. Qed.
Print Assumptions C31_flip_transmute.
Theorem C31_flip_twice : forall K V R (op : joint_op (K * V) V R) e e', jcall (jflip (jflip op)) e e' = jcall op e e'.
Proof. intros K V R op e e'. destruct op as [f b| | | |]; cbn; try reflexivity. destruct b; reflexivity. Qed.
Print Assumptions C31_flip_twice.
Example C31_flip_ex : ~ one_sided (JGeneric ex_p true) /\ jcall (JGeneric ex_p true) (4, 0, 1) (4, 0, 2) = BUnchangedR 1 /\
  jcall (jflip (JGeneric ex_p true)) (4, 0, 2) (4, 0, 1) = BUnchangedL 1.
Proof. split; [exact (fun H => H)|]. vm_compute. auto. Qed.

(** * C19 *)
(** The constants keep or remove by side, as the closures that return the same
    for every key do.  Missing: the constants UnchangedL and UnchangedR, for
    which the claim is false. *)
Theorem C19_joint_constants_partial : forall (E : Env) K V R R' (KK : Key K) (rdef : R) rd st (rdef' : R') rd' st'
    (kb kl kr : bool) rb rl rr rb' rl' rr' (m right : trie K V) m1 r1 o1 m2 r2 o2,
  reachable m -> reachable right ->
  map_tt rdef rd st (if kb then JUnchangedLR rb else JRemoved rb) (if kl then TUnchanged rl else TRemoved rl)
    (if kr then TUnchanged rr else TRemoved rr) m right = Ret (m1, r1, o1) ->
  map_tt rdef' rd' st' (JGeneric (fun _ _ => if kb then BUnchangedLR rb' else BDropped rb') false)
    (TGeneric (fun _ => if kl then VUnchanged rl' else VDropped rl')) (TGeneric (fun _ => if kr then VUnchanged rr' else VDropped rr'))
    m right = Ret (m2, r2, o2) ->
  (forall Q (KQ : Key Q) (q : Q), has m1 q = has m2 q) /\ map_size m1 = map_size m2 /\
  ((forall e e', In e (map_visit m) -> In e' (map_visit right) -> cls (fst e) = cls (fst e') -> snd e = snd e') -> alike m1 m2).
Proof. intros E K V R R' KK. exact tt_constants. Qed.
Print Assumptions C19_joint_constants_partial.
Theorem C19_joint_constants_refuted : exists (E : Env) (KK : Key key) (m right m1 m2 : trie key N) (q : key) r1 o1 r2 o2,
  reachable m /\ reachable right /\
  map_tt 0 N.add Sequential (JUnchangedL 0) (TUnchanged 0) (TUnchanged 0) m right = Ret (m1, r1, o1) /\
  map_tt 0 N.add Sequential (JGeneric (fun _ _ => BUnchangedL 0) false) (TUnchanged 0) (TUnchanged 0) m right = Ret (m2, r2, o2) /\
  map_find m1 q <> map_find m2 q.
Proof.
  exists exE, key_key, (ex_of [(4, 1)]), (ex_of [(4, 2); (132, 2)]). do 2 eexists. exists (4, 0). do 4 eexists.
  split; [ex_of_reach|]. split; [ex_of_reach|]. split; [vm_compute; reflexivity|]. split; [vm_compute; reflexivity|].
  vm_compute. discriminate.
Qed.
Print Assumptions C19_joint_constants_refuted.
Example C19_joint_constants_ex : reachable (E := exE) ex_m /\ reachable (E := exE) ex_t /\
  (exists m1, map_tt 0 N.add Sequential (JUnchangedLR 1) (TUnchanged 1) (TRemoved 1) ex_m ex_t = Ret (m1, 1, Self) /\ map_size m1 = 7) /\
  exists m2, map_tt 0 N.add MiddleIndex (JGeneric (fun _ _ => BUnchangedLR 1) false) (TGeneric (fun _ => VUnchanged 1))
    (TGeneric (fun _ => VDropped 1)) ex_m ex_t = Ret (m2, 10, Other) /\ map_size m2 = 7.
Proof.
  split; [exact ex_reach|]. split; [exact ex_t_reach|].
  split; eexists; (split; [vm_compute; reflexivity|]); vm_compute; reflexivity.
Qed.

(** * C34 *)
Theorem C34_tt_tm : forall (E : Env) K V R R' (KK : Key K) (rdef : R) rd st (rdef' : R') rd' st'
    both lop rop both' lop' rop' (m right : trie K V) m1 r1 o1 m2 r2 o2,
  reachable m -> reachable right ->
  tame both lop rop (map_visit m) (map_visit right) -> ~ one_sided both ->
  (forall e k v x, In e (map_visit right) -> mcall rop' e = KTransmuted k v x -> cls k = cls (fst e)) ->
  map_tt rdef rd st both lop rop m right = Ret (m1, r1, o1) ->
  map_tm rdef' rd' st' both' lop' rop' m right = Ret (m2, r2, o2) ->
  (forall e e' x, In e (map_visit m) -> In e' (map_visit right) -> cls (fst e) = cls (fst e') ->
     b_to (jcall both e e') e e' x -> option_map snd x = option_map snd (t_to (tcall both' (e, e')) e)) ->
  (forall e, In e (map_visit m) -> option_map snd (t_to (tcall lop e) e) = option_map snd (t_to (tcall lop' e) e)) ->
  (forall e, In e (map_visit right) -> option_map snd (t_to (tcall rop e) e) = option_map snd (m_to (mcall rop' e))) ->
  alike m1 m2.
Proof.
  intros E K V R R' KK rdef rd st rdef' rd' st' both lop rop both' lop' rop' m right m1 r1 o1 m2 r2 o2 HR HRr HD Hn HK H1 H2 HB HL HRR.
  destruct (tt_exact rdef rd st both lop rop m right m1 r1 o1 HR HRr HD Hn H1) as [(fB & HM & HB') _].
  refine (merges_alike _ _ _ _ _ _ m right m1 m2 HR HRr HM (proj1 (tm_exact rdef' rd' st' both' lop' rop' m right m2 r2 o2 HR HRr HK H2)) _ HL HRR).
  intros e e' A B C. apply (HB e e'); auto.
Qed.
Print Assumptions C34_tt_tm.
Theorem C34_tt_mt : forall (E : Env) K V R R' (KK : Key K) (rdef : R) rd st (rdef' : R') rd' st'
    both lop rop both' lop' rop' (m right : trie K V) m1 r1 o1 m2 r2 o2,
  reachable m -> reachable right ->
  tame both lop rop (map_visit m) (map_visit right) -> ~ one_sided both ->
  (forall e k v x, In e (map_visit m) -> mcall lop' e = KTransmuted k v x -> cls k = cls (fst e)) ->
  map_tt rdef rd st both lop rop m right = Ret (m1, r1, o1) ->
  map_mt rdef' rd' st' both' lop' rop' m right = Ret (m2, r2, o2) ->
  (forall e e' x, In e (map_visit m) -> In e' (map_visit right) -> cls (fst e) = cls (fst e') ->
     b_to (jcall both e e') e e' x -> option_map snd x = option_map snd (t_to (tcall both' (e, e')) e')) ->
  (forall e, In e (map_visit m) -> option_map snd (t_to (tcall lop e) e) = option_map snd (m_to (mcall lop' e))) ->
  (forall e, In e (map_visit right) -> option_map snd (t_to (tcall rop e) e) = option_map snd (t_to (tcall rop' e) e)) ->
  alike m1 m2.
Proof.
  intros E K V R R' KK rdef rd st rdef' rd' st' both lop rop both' lop' rop' m right m1 r1 o1 m2 r2 o2 HR HRr HD Hn HK H1 H2 HB HL HRR.
  destruct (tt_exact rdef rd st both lop rop m right m1 r1 o1 HR HRr HD Hn H1) as [(fB & HM & HB') _].
  refine (merges_alike _ _ _ _ _ _ m right m1 m2 HR HRr HM (proj1 (mt_exact rdef' rd' st' both' lop' rop' m right m2 r2 o2 HR HRr HK H2)) _ HL HRR).
  intros e e' A B C. apply (HB e e'); auto.
Qed.
Print Assumptions C34_tt_mt.
Theorem C34_tt_mm : forall (E : Env) K V S R R' (KK : Key K) (KS : Key S) (rdef : R) rd st (rdef' : R') rd'
    both lop rop (both' : transmute_op ((K * V) * (K * V)) S V R') lop' rop' (m right : trie K V) m1 r1 o1 m2 r2,
  reachable m -> reachable right ->
  tame both lop rop (map_visit m) (map_visit right) -> ~ one_sided both ->
  (forall e e' k v x, In e (map_visit m) -> In e' (map_visit right) -> cls (fst e) = cls (fst e') ->
     mcall both' (e, e') = KTransmuted k v x -> cls k = cls (fst e)) ->
  (forall e k v x, In e (map_visit m) -> mcall lop' e = KTransmuted k v x -> cls k = cls (fst e)) ->
  (forall e k v x, In e (map_visit right) -> mcall rop' e = KTransmuted k v x -> cls k = cls (fst e)) ->
  map_tt rdef rd st both lop rop m right = Ret (m1, r1, o1) ->
  map_mm rdef' rd' both' lop' rop' m right = Ret (m2, r2) ->
  (forall e e' x, In e (map_visit m) -> In e' (map_visit right) -> cls (fst e) = cls (fst e') ->
     b_to (jcall both e e') e e' x -> option_map snd x = option_map snd (m_to (mcall both' (e, e')))) ->
  (forall e, In e (map_visit m) -> option_map snd (t_to (tcall lop e) e) = option_map snd (m_to (mcall lop' e))) ->
  (forall e, In e (map_visit right) -> option_map snd (t_to (tcall rop e) e) = option_map snd (m_to (mcall rop' e))) ->
  alike m1 m2.
Proof.
  intros E K V S R R' KK KS rdef rd st rdef' rd' both lop rop both' lop' rop' m right m1 r1 o1 m2 r2 HR HRr HD Hn HKb HKl HKr H1 H2 HB HL HRR.
  destruct (tt_exact rdef rd st both lop rop m right m1 r1 o1 HR HRr HD Hn H1) as [(fB & HM & HB') _].
  refine (merges_alike _ _ _ _ _ _ m right m1 m2 HR HRr HM (mm_exact rdef' rd' both' lop' rop' m right m2 r2 HR HRr HKb HKl HKr H2) _ HL HRR).
  intros e e' A B C. apply (HB e e'); auto.
Qed.
Print Assumptions C34_tt_mm.
(** Both families add the values of common keys, keep the left-only and drop
    the right-only entries. *)
Example C34_tt_tm_ex :
  let both := JGeneric (fun e e' : key * N => BTransformed (snd e + snd e') 1) false in
  let both' := TGeneric (fun p : (key * N) * (key * N) => VTransformed (snd (fst p) + snd (snd p)) 1) in
  reachable (E := exE) ex_m /\ reachable (E := exE) ex_t /\
  tame (E := exE) both (TUnchanged 1) (TRemoved 1) (map_visit ex_m) (map_visit ex_t) /\ ~ one_sided both /\
  (forall e e' x, b_to (jcall both e e') e e' x -> option_map snd x = option_map snd (t_to (tcall both' (e, e')) e)) /\
  exists m1 r1 m2 r2,
    map_tt 0 N.add Sequential both (TUnchanged 1) (TRemoved 1) ex_m ex_t = Ret (m1, r1, Other) /\
    map_tm 0 N.add Sequential both' (TUnchanged 1) (MRemoved 1) ex_m ex_t = Ret (m2, r2, Other) /\
    map_find m1 (Num 1) = Ret (Ok (1, 1, 117)) /\ map_find m2 (Num 1) = Ret (Ok (1, 1, 117)).
Proof.
  cbv zeta. split; [exact ex_reach|]. split; [exact ex_t_reach|]. split.
  - apply tame_impartial; [intros e e'; exact I|left; apply steady_unchanged|left; apply steady_removed].
  - split; [exact (fun H => H)|]. split; [intros e e' x [-> | ->]; reflexivity|].
    do 4 eexists. split; [vm_compute; reflexivity|]. split; [vm_compute; reflexivity|]. vm_compute. auto.
Qed.

(** * C39 *)
Theorem C39_keys_tt : forall (E : Env) K V R (KK : Key K) (rdef : R) (rd : R -> R -> R) st
    both lop rop (m right : trie K V) m' r o,
  reachable m -> reachable right -> tame both lop rop (map_visit m) (map_visit right) ->
  map_tt rdef rd st both lop rop m right = Ret (m', r, o) ->
  forall x, In x (map_visit m') ->
    (exists e, In e (map_visit m) /\ fst x = fst e) \/ (exists e', In e' (map_visit right) /\ fst x = fst e').
Proof. intros E K V R KK. exact tt_keys. Qed.
Print Assumptions C39_keys_tt.
(** The example of C21: tags 0 and 1 come from the left map, the others from
    the right one. *)

(** * C42 *)
Theorem C42_tt_removes_all : forall (E : Env) K V R (KK : Key K) (rdef : R) (rd : R -> R -> R) st
    both lop rop (m right : trie K V) m' r o,
  reachable m -> reachable right ->
  (forall e e', In e (map_visit m) -> In e' (map_visit right) -> cls (fst e) = cls (fst e') -> exists x, jcall both e e' = BDropped x) ->
  (forall e, In e (map_visit m) -> exists x, tcall lop e = VDropped x) ->
  (forall e, In e (map_visit right) -> exists x, tcall rop e = VDropped x) ->
  map_tt rdef rd st both lop rop m right = Ret (m', r, o) -> m' = map_new.
Proof. intros E K V R KK. exact tt_all_dropped. Qed.
Print Assumptions C42_tt_removes_all.
Example C42_tt_removes_all_ex : reachable (E := exE) ex_m /\ reachable (E := exE) ex_t /\
  map_tt 0 N.add Sequential (JGeneric (fun _ _ => BDropped 1) false) (TRemoved 1) (TGeneric (fun _ => VDropped 1)) ex_m ex_t
    = Ret (map_new, 10, Other).
Proof. split; [exact ex_reach|]. split; [exact ex_t_reach|]. vm_compute. reflexivity. Qed.
