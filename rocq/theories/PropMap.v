(** C01-C06, C10-C14, C32, C37, C38, C41: single calls of find, insert,
    remove, size and visit. *)
From Coq Require Import NArith List Bool Permutation.
From Verif Require Import Base Words Flag Bia Node Api Spec Reach MapP Hist HistP Profile Cost CostP ApiP Depth Ex.
Import ListNotations.
Open Scope N_scope.

(** For the examples only; the theorems bind their own [Env]. *)
#[local] Existing Instance exE | 100.

(** * C01 *)
Theorem C01_insert_find : forall (E : Env) K V (KK : Key K) Q (KQ : Key Q) (into : Q -> K) (m : trie K V) q v replace res,
  reachable m -> cls (into q) = cls q ->
  map_find m q = Ret (Err NotFound) -> map_insert into m q v replace = Ret res ->
  exists m', res = Ok (m', (into q, v), None) /\ map_find m' q = Ret (Ok (into q, v)) /\
    (forall Q' (KQ' : Key Q') (q' : Q'), cls q' <> cls q -> map_find m' q' = map_find m q').
Proof. intros E K V KK Q KQ. exact insert_absent. Qed.
Print Assumptions C01_insert_find.
(** A fourth key with the hash of three stored ones. *)
Example C01_insert_find_ex : reachable (E := exE) ex_m /\ cls (num_into (Num 3)) = cls (Num 3) /\
  map_find ex_m (Num 3) = Ret (Err NotFound) /\
  exists m', map_insert num_into ex_m (Num 3) 30 false = Ret (Ok (m', (3, 77, 30), None)) /\
    map_find m' (Num 3) = Ret (Ok (3, 77, 30)) /\ map_find m' (Num 2) = Ret (Ok (2, 0, 12)).
Proof. split; [exact ex_reach|]. split; [reflexivity|]. split; [vm_compute; reflexivity|]. eexists. split; [vm_compute; reflexivity|]. vm_compute. auto. Qed.

(** * C02 *)
Theorem C02_insert_refused : forall (E : Env) K V (KK : Key K) Q (KQ : Key Q) (into : Q -> K) (m : trie K V) q v e res,
  reachable m -> cls (into q) = cls q ->
  map_find m q = Ret (Ok e) -> map_insert into m q v false = Ret res -> res = Err e.
Proof. intros E K V KK Q KQ. exact insert_refused. Qed.
Print Assumptions C02_insert_refused.
Example C02_insert_refused_ex : reachable (E := exE) ex_m /\ map_find ex_m (Num 1) = Ret (Ok (1, 1, 17)) /\
  map_insert num_into ex_m (Num 1) 99 false = Ret (Err (1, 1, 17)).
Proof. split; [exact ex_reach|]. vm_compute. auto. Qed.

(** * C03 *)
Theorem C03_insert_replace : forall (E : Env) K V (KK : Key K) Q (KQ : Key Q) (into : Q -> K) (m : trie K V) q v res,
  reachable m -> cls (into q) = cls q -> map_insert into m q v true = Ret res ->
  exists m' prev, res = Ok (m', (into q, v), prev) /\
    map_find m q = Ret (match prev with Some e => Ok e | None => Err NotFound end) /\
    map_find m' q = Ret (Ok (into q, v)) /\
    (forall Q' (KQ' : Key Q') (q' : Q'), cls q' <> cls q -> map_find m' q' = map_find m q') /\
    map_size m' = match prev with Some _ => map_size m | None => map_size m + 1 end.
Proof. intros E K V KK Q KQ. exact insert_replace. Qed.
Print Assumptions C03_insert_replace.
Example C03_insert_replace_ex : reachable (E := exE) ex_m /\ map_size ex_m = 7 /\
  exists m', map_insert num_into ex_m (Num 1) 99 true = Ret (Ok (m', (1, 77, 99), Some (1, 1, 17))) /\
    map_size m' = 7 /\ map_find m' (Num 1) = Ret (Ok (1, 77, 99)).
Proof. split; [exact ex_reach|]. split; [vm_compute; reflexivity|]. eexists. split; [vm_compute; reflexivity|]. vm_compute. auto. Qed.

(** * C04 *)
Theorem C04_remove : forall (E : Env) K V (KK : Key K) Q (KQ : Key Q) (m : trie K V) (q : Q) res,
  reachable m -> map_remove m q = Ret res ->
  (res = Err NotFound <-> map_find m q = Ret (Err NotFound)) /\
  (forall m' e, res = Ok (m', e) ->
     map_find m q = Ret (Ok e) /\ map_find m' q = Ret (Err NotFound) /\
     (forall Q' (KQ' : Key Q') (q' : Q'), cls q' <> cls q -> map_find m' q' = map_find m q') /\
     map_size m' + 1 = map_size m).
Proof. intros E K V KK Q KQ. exact remove_exact. Qed.
Print Assumptions C04_remove.
Example C04_remove_ex : reachable (E := exE) ex_m /\ map_remove ex_m (Num 3) = Ret (Err NotFound) /\
  exists m', map_remove ex_m (Num 2) = Ret (Ok (m', (2, 0, 12))) /\ map_size m' = 6 /\
    map_find m' (Num 2) = Ret (Err NotFound) /\ map_find m' (Num 1) = Ret (Ok (1, 1, 17)).
Proof. split; [exact ex_reach|]. split; [vm_compute; reflexivity|]. eexists. split; [vm_compute; reflexivity|]. vm_compute. auto. Qed.

(** * C05 *)
Theorem C05_size : forall (E : Env) K V (KK : Key K) (m : trie K V), reachable m ->
  map_size m = N.of_nat (length (map_visit m)) /\
  (exists cs : list C, NoDup cs /\ forall c, In c cs <-> exists e, map_find m c = Ret (Ok e)) /\
  (forall cs : list C, NoDup cs -> (forall c, In c cs <-> exists e, map_find m c = Ret (Ok e)) ->
     map_size m = N.of_nat (length cs)).
Proof. intros E K V KK. exact size_exact. Qed.
Print Assumptions C05_size.
Example C05_size_ex : reachable (E := exE) ex_m /\ map_size ex_m = 7 /\ length (map_visit ex_m) = 7%nat.
Proof. split; [exact ex_reach|]. vm_compute. auto. Qed.

(** * C06 *)
Theorem C06_visit : forall (E : Env) K V (KK : Key K) (m : trie K V), reachable m ->
  (forall Q (KQ : Key Q) (q : Q) e, map_find m q = Ret (Ok e) <-> In e (map_visit m) /\ cls (fst e) = cls q) /\
  NoDup (map (fun e => cls (fst e)) (map_visit m)).
Proof. intros E K V KK. exact visit_exact. Qed.
Print Assumptions C06_visit.
Example C06_visit_ex : reachable (E := exE) ex_m /\
  map_visit ex_m = [(1, 1, 17); (2, 0, 12); (0, 0, 10); (4 * 2 ^ 60, 0, 15); (4 * 2 ^ 10, 0, 14); (4 * 2 ^ 5, 0, 13); (36, 0, 18)].
Proof. split; [exact ex_reach|]. vm_compute. reflexivity. Qed.

(** * C10 *)
Theorem C10_release_total : forall (E : Env) K V (KK : Key K) Q (KQ : Key Q) (into : Q -> K) (m : trie K V) q v replace,
  checked = false -> reachable m -> cls (into q) = cls q ->
  (exists r, map_find m q = Ret r) /\ (exists r, map_insert into m q v replace = Ret r) /\
  (exists r, map_remove m q = Ret r).
Proof. intros E K V KK Q KQ. exact release_total. Qed.
Print Assumptions C10_release_total.
(** [ex_m] has a branch on the last slice of the hash of class 0. *)
Example C10_release_total_ex : @checked exE = false /\ reachable (E := exE) ex_m /\ deep (E := exE) ex_m 0 = true /\
  exists m', map_insert num_into ex_m (Num 3) 30 false = Ret (Ok (m', (3, 77, 30), None)).
Proof. split; [reflexivity|]. split; [exact ex_reach|]. split; [vm_compute; reflexivity|]. eexists. vm_compute. reflexivity. Qed.

(** * C11 *)
(** Full statement, false: insert and remove never panic in a debug build. *)
Theorem C11_debug_total_refuted : exists (E : Env) K V (KK : Key K) (m : trie K V) (k : K) (v : V),
  checked = true /\ reachable m /\
  map_insert (fun x => x) m k v true = Panic /\ map_remove m k = Panic.
Proof.
  pose (E := exD). pose (KK := (fun k => k) : @Key exD N).
  pose (os := [OInsert 0 10 false; OInsert (4 * 2 ^ 60) 11 false] : list (op N N)).
  destruct (@run exD N N KK map_new os) as [[m xs]| |] eqn:Hr; [|vm_compute in Hr; discriminate..].
  exists exD, N, N, KK, m, 0, 1. split; [reflexivity|]. split; [exact (@run_reachable exD N N KK os m xs Hr)|].
  vm_compute in Hr. injection Hr as <- _. vm_compute. auto.
Qed.
Print Assumptions C11_debug_total_refuted.

(** Exactly when: overflow checks are on and the path of the key goes through
    an occupied slot of a branch on the last slice of the hash. *)
Theorem C11_insert_panics_iff : forall (E : Env) K V (KK : Key K) Q (KQ : Key Q) (into : Q -> K) (m : trie K V) q v replace,
  reachable m -> cls (into q) = cls q ->
  (map_insert into m q v replace = Panic /\ checked = true /\ deep m (cls q) = true) \/
  ((exists r, map_insert into m q v replace = Ret r) /\ (checked = false \/ deep m (cls q) = false)).
Proof. intros E K V KK Q KQ. exact insert_total_iff. Qed.
Print Assumptions C11_insert_panics_iff.
Theorem C11_remove_panics_iff : forall (E : Env) K V (KK : Key K) Q (KQ : Key Q) (m : trie K V) (q : Q),
  reachable m ->
  (map_remove m q = Panic /\ checked = true /\ deep m (cls q) = true) \/
  ((exists r, map_remove m q = Ret r) /\ (checked = false \/ deep m (cls q) = false)).
Proof. intros E K V KK Q KQ. exact remove_total_iff. Qed.
Print Assumptions C11_remove_panics_iff.
Example C11_panics_iff_ex : reachable (E := exE) ex_m /\ deep (E := exE) ex_m 0 = true /\ deep (E := exE) ex_m 36 = false.
Proof. split; [exact ex_reach|]. vm_compute. auto. Qed.

(** What holds in both profiles: keys whose full hash no stored key has. *)
Theorem C11_fresh_hash_partial : forall (E : Env) K V (KK : Key K) Q (KQ : Key Q) (into : Q -> K) (m : trie K V) q v replace,
  reachable m -> cls (into q) = cls q ->
  (forall e, In e (map_visit m) -> hash (cls (fst e)) <> hash (cls q)) ->
  (exists r, map_insert into m q v replace = Ret r) /\ (exists r, map_remove m q = Ret r).
Proof. intros E K V KK Q KQ. exact fresh_hash_no_panic. Qed.
Print Assumptions C11_fresh_hash_partial.
Example C11_fresh_hash_ex : reachable (E := exE) ex_m /\
  (forall e, In e (map_visit ex_m) -> hash (cls (fst e)) <> hash (Env := exE) (cls (Num (8 * 2 ^ 60)))).
Proof.
  split; [exact ex_reach|]. intros e He. vm_compute in He.
  repeat (destruct He as [<-|He]; [vm_compute; discriminate|]). destruct He.
Qed.

(** What holds in both profiles: histories whose inserted keys, when their
    hashes differ at all, differ before the last slice. *)
Theorem C11_separated_partial : forall (E : Env) K V (KK : Key K) (os : list (op K V)),
  (forall k k', In k (inserted os) -> In k' (inserted os) ->
     hashk k mod 2 ^ (log_b fw * ((max_ones hw - 1) / log_b fw)) =
     hashk k' mod 2 ^ (log_b fw * ((max_ones hw - 1) / log_b fw)) -> hashk k = hashk k') ->
  exists r, run map_new os = Ret r.
Proof. intros E K V KK. exact separated_no_panic. Qed.
Print Assumptions C11_separated_partial.
Example C11_separated_ex :
  let KK := (fun k => k) : @Key exD N in
  let os := [OInsert 0 10 false; OInsert 1 11 false; OInsert (4 * 2 ^ 59) 12 false; ORemove 1; OInsert 0 13 true] in
  (forall k k', In k (inserted (V := N) os) -> In k' (inserted os) ->
     @hashk exD N KK k mod 2 ^ 60 = @hashk exD N KK k' mod 2 ^ 60 -> @hashk exD N KK k = @hashk exD N KK k').
Proof.
  intros KK os k k' Hk Hk'. vm_compute in Hk, Hk'.
  repeat (destruct Hk as [<-|Hk]; [repeat (destruct Hk' as [<-|Hk']; [vm_compute; congruence|]); destruct Hk'|]).
  destruct Hk.
Qed.

(** * C12 *)
Theorem C12_find_total : forall (E : Env) K V (KK : Key K) Q (KQ : Key Q) (m : trie K V) (q : Q),
  reachable m -> exists r, map_find m q = Ret r.
Proof. intros E K V KK Q KQ. exact find_total. Qed.
Print Assumptions C12_find_total.
(** A debug build, on the map whose insert panics. *)
Example C12_find_total_ex :
  let KK := (fun k => k) : @Key exD N in
  exists m xs, @run exD N N KK map_new [OInsert 0 10 false; OInsert (4 * 2 ^ 60) 11 false] = Ret (m, xs) /\
    @map_insert exD N N KK N KK (fun x => x) m 0 1 true = Panic /\ @map_find exD N N KK N KK m 0 = Ret (Ok (0, 10)).
Proof. intros KK. do 2 eexists. split; [vm_compute; reflexivity|]. vm_compute. auto. Qed.

(** * C13 *)
Theorem C13_collisions : forall (E : Env) K V (KK : Key K) (es : list (K * V)),
  checked = false -> NoDup (map (fun e => cls (fst e)) es) ->
  exists m xs, run map_new (insert_all es) = Ret (m, xs) /\
    Permutation (map_visit m) es /\ map_size m = N.of_nat (length es) /\
    (forall Q (KQ : Key Q) (q : Q) e, map_find m q = Ret (Ok e) <-> In e es /\ cls (fst e) = cls q) /\
    (forall q e, In e es -> cls q = cls (fst e) -> exists m', map_remove m q = Ret (Ok (m', e)) /\
       Permutation (e :: map_visit m') es).
Proof. intros E K V KK. exact collisions_exact. Qed.
Print Assumptions C13_collisions.
(** Every key has hash 0. *)
Definition exZ : Env := env W64 W32 (fun _ => 0) false.
Example C13_collisions_ex :
  let KK := (fun k => k) : @Key exZ N in
  @checked exZ = false /\ NoDup (map (fun e : N * N => @cls exZ N KK (fst e)) [(1, 1); (2, 2); (3, 3); (4, 4)]) /\
  hash (Env := exZ) 1 = hash (Env := exZ) 4.
Proof.
  intros KK. split; [reflexivity|]. split; [|reflexivity]. vm_compute.
  repeat (constructor; [intros H; cbn in H; repeat (destruct H as [H|H]; [discriminate|]); exact H|]). constructor.
Qed.

(** * C14 *)
Theorem C14_insert_remove : forall (E : Env) K V (KK : Key K) Q (KQ : Key Q) (into : Q -> K) (m : trie K V) q v replace m1 e prev res,
  reachable m -> cls (into q) = cls q -> map_find m q = Ret (Err NotFound) ->
  map_insert into m q v replace = Ret (Ok (m1, e, prev)) -> map_remove m1 q = Ret res ->
  exists m2, res = Ok (m2, (into q, v)) /\
    (forall Q' (KQ' : Key Q') (q' : Q'), map_find m2 q' = map_find m q') /\
    map_size m2 = map_size m /\ Permutation (map_visit m2) (map_visit m).
Proof. intros E K V KK Q KQ. exact insert_remove_inverse. Qed.
Print Assumptions C14_insert_remove.
Theorem C14_remove_insert : forall (E : Env) K V (KK : Key K) Q (KQ : Key Q) (into : Q -> K) (m : trie K V) q v replace m1 res,
  reachable m -> cls (into q) = cls q ->
  map_remove m q = Ret (Ok (m1, (into q, v))) -> map_insert into m1 q v replace = Ret res ->
  exists m2, res = Ok (m2, (into q, v), None) /\
    (forall Q' (KQ' : Key Q') (q' : Q'), map_find m2 q' = map_find m q') /\
    map_size m2 = map_size m /\ Permutation (map_visit m2) (map_visit m).
Proof. intros E K V KK Q KQ. exact remove_insert_inverse. Qed.
Print Assumptions C14_remove_insert.
Example C14_ex : reachable (E := exE) ex_m /\
  (exists m1 m2, map_insert num_into ex_m (Num 3) 30 false = Ret (Ok (m1, (3, 77, 30), None)) /\
     map_remove m1 (Num 3) = Ret (Ok (m2, (3, 77, 30))) /\ map_visit m2 = map_visit ex_m) /\
  (exists m1 m2, map_remove ex_m (Num 2) = Ret (Ok (m1, (2, 0, 12))) /\
     map_insert (fun x : key => x) m1 (2, 0) 12 false = Ret (Ok (m2, (2, 0, 12), None)) /\ map_visit m2 <> map_visit ex_m).
Proof.
  split; [exact ex_reach|]. split; do 2 eexists; (split; [vm_compute; reflexivity|]); (split; [vm_compute; reflexivity|]);
    vm_compute; [reflexivity|discriminate].
Qed.

(** * C32 *)
Theorem C32_lookup_cost : forall (E : Env) K V (KK : Key K) Q (KQ : Key Q) (m : trie K V) (q : Q), reachable m ->
  exists r b c, map_find_cost m q = Ret (r, (b, c)) /\ map_find m q = Ret r /\
    b * log_b fw < max_ones hw + log_b fw /\
    exists h, c <= N.of_nat (length (filter (fun e => hash (cls (fst e)) =? h) (map_visit m))).
Proof. intros E K V KK Q KQ. exact find_cost. Qed.
Print Assumptions C32_lookup_cost.
(** The full 13 branches of a 64-bit hash with 5-bit slices, then 3 keys. *)
Example C32_lookup_cost_ex : reachable (E := exE) ex_m /\
  map_find_cost ex_m (Num 0) = Ret (Ok (0, 0, 10), (13, 3)) /\ map_find_cost ex_m (Num 36) = Ret (Ok (36, 0, 18), (1, 1)).
Proof. split; [exact ex_reach|]. vm_compute. auto. Qed.

(** * C37 *)
Theorem C37_find_query : forall (E : Env) K V (KK : Key K) Q (KQ : Key Q) (m : trie K V) (q : Q) (k : K),
  cls q = cls k -> map_find m q = map_find m k.
Proof. intros E K V KK Q KQ m q k. apply map_find_cls. Qed.
Print Assumptions C37_find_query.
Theorem C37_remove_query : forall (E : Env) K V (KK : Key K) Q (KQ : Key Q) (m : trie K V) (q : Q) (k : K),
  cls q = cls k -> map_remove m q = map_remove m k.
Proof. intros E K V KK Q KQ m q k. apply map_remove_cls. Qed.
Print Assumptions C37_remove_query.
Theorem C37_insert_query : forall (E : Env) K V (KK : Key K) Q (KQ : Key Q) (into : Q -> K) (m : trie K V) (q : Q) v replace,
  cls (into q) = cls q -> map_insert into m q v replace = map_insert (fun x : K => x) m (into q) v replace.
Proof. intros E K V KK Q KQ into m q v replace H. apply map_insert_cls; [symmetry; exact H|reflexivity]. Qed.
Print Assumptions C37_insert_query.
Example C37_ex : @cls exE num _ (Num 2) = @cls exE key _ (2, 9) /\ map_find ex_m (Num 2) = Ret (Ok (2, 0, 12)) /\
  cls (num_into (Num 3)) = cls (Num 3) /\
  exists m', map_insert num_into ex_m (Num 3) 30 false = Ret (Ok (m', (3, 77, 30), None)).
Proof. split; [reflexivity|]. split; [vm_compute; reflexivity|]. split; [reflexivity|]. eexists. vm_compute. reflexivity. Qed.

(** * C38 *)
Theorem C38_returned_entry : forall (E : Env) K V (KK : Key K) Q (KQ : Key Q) (into : Q -> K) (m : trie K V) q v replace m' e prev,
  reachable m -> cls (into q) = cls q -> map_insert into m q v replace = Ret (Ok (m', e, prev)) ->
  e = (into q, v) /\ map_find m' q = Ret (Ok e) /\ map_find m' (into q) = Ret (Ok e).
Proof. intros E K V KK Q KQ. exact insert_returns_stored. Qed.
Print Assumptions C38_returned_entry.
Example C38_returned_entry_ex : reachable (E := exE) ex_m /\
  exists m', map_insert num_into ex_m (Num 0) 99 true = Ret (Ok (m', (0, 77, 99), Some (0, 0, 10))) /\
    map_find m' (Num 0) = Ret (Ok (0, 77, 99)).
Proof. split; [exact ex_reach|]. eexists. split; [vm_compute; reflexivity|]. vm_compute. auto. Qed.

(** * C41 *)
Theorem C41_find : forall (E : Env) K V (KK : @Key E K) Q (KQ : @Key E Q) (m : trie K V) (q : Q) r,
  @map_find E K V KK Q KQ m q = Ret r -> @map_find (release E) K V KK Q KQ m q = Ret r.
Proof. exact @debug_find. Qed.
Print Assumptions C41_find.
Theorem C41_insert : forall (E : Env) K V (KK : @Key E K) Q (KQ : @Key E Q) (into : Q -> K) (m : trie K V) (q : Q) v replace r,
  @map_insert E K V KK Q KQ into m q v replace = Ret r -> @map_insert (release E) K V KK Q KQ into m q v replace = Ret r.
Proof. exact @debug_insert. Qed.
Print Assumptions C41_insert.
Theorem C41_remove : forall (E : Env) K V (KK : @Key E K) Q (KQ : @Key E Q) (m : trie K V) (q : Q) r,
  @map_remove E K V KK Q KQ m q = Ret r -> @map_remove (release E) K V KK Q KQ m q = Ret r.
Proof. exact @debug_remove. Qed.
Print Assumptions C41_remove.
(** The debug build returns on [ex_m] for class 36 and panics for class 0. *)
Example C41_ex :
  let KK := (fun k => fst k) : @Key exD key in
  (exists m', @map_insert exD key N KK key KK (fun x => x) ex_m (36, 1) 5 true = Ret (Ok (m', (36, 1, 5), Some (36, 0, 18)))) /\
  @map_insert exD key N KK key KK (fun x => x) ex_m (0, 1) 5 true = Panic /\
  exists m', @map_insert (release exD) key N KK key KK (fun x => x) ex_m (0, 1) 5 true = Ret (Ok (m', (0, 1, 5), Some (0, 0, 10))).
Proof.
  intros KK. split; [eexists; vm_compute; reflexivity|]. split; [vm_compute; reflexivity|]. eexists; vm_compute; reflexivity.
Qed.
