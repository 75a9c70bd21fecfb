(** C22, C39, C45: maps built with any use of transform_with_transformed,
    which may hold a key more than once. *)
From Coq Require Import NArith Arith List Bool Lia Permutation.
From Verif Require Import Base Words Flag Bia Node Api Spec Weak Trans Transform SpecT LoopP Joint JointT SpecJ Reach Built BuiltP RedP
  JointMapP Hist Ex PropJointT.
Import ListNotations.
Open Scope N_scope.

(** For the examples only; the theorems bind their own [Env]. *)
#[local] Existing Instance exE | 100.

(** The map of C21_duplicate_refuted: class 0 twice. *)
Definition ex_dup : trie key N :=
  match map_tt 0 N.add Sequential (JGeneric keep_right false) (TUnchanged 0) (TUnchanged 0)
          (ex_of [(0, 1); (1, 1)]) (ex_of [(0, 2)]) with
  | Ret (m, _, _) => m
  | _ => map_new
  end.
Lemma ex_dup_built : built (E := exE) ex_dup.
Proof.
  apply (built_tt _ _ _ _ 0 N.add Sequential (JGeneric keep_right false) (TUnchanged 0) (TUnchanged 0)
    (ex_of [(0, 1); (1, 1)]) (ex_of [(0, 2)]) ex_dup 0 Other).
  - apply reachable_built. ex_of_reach.
  - apply reachable_built. ex_of_reach.
  - vm_compute. reflexivity.
Qed.

(** * C45 *)
Theorem C45_size : forall (E : Env) K V (KK : Key K) (m : trie K V),
  built m -> map_size m = N.of_nat (length (map_visit m)).
Proof. intros E K V KK. exact built_size. Qed.
Print Assumptions C45_size.
(** [sel c l] are the entries of [l] with a key of class [c], in visit order. *)
Theorem C45_find : forall (E : Env) K V (KK : Key K) Q (KQ : Key Q) (m : trie K V) (q : Q),
  built m ->
  map_find m q = Ret (match sel (cls q) (map_visit m) with e :: _ => Ok e | [] => Err NotFound end).
Proof. intros E K V KK Q KQ. exact built_find. Qed.
Print Assumptions C45_find.
Theorem C45_insert : forall (E : Env) K V (KK : Key K) Q (KQ : Key Q) (into : Q -> K) (m : trie K V) q v replace,
  built m -> cls (into q) = cls q ->
  (checked = false -> exists res, map_insert into m q v replace = Ret res) /\
  (forall res, map_insert into m q v replace = Ret res ->
     match stack_insert (into q) v replace (sel (cls q) (map_visit m)) with
     | Err e => res = Err e
     | Ok (stk, prev) => exists m', res = Ok (m', (into q, v), prev) /\ built m' /\
         (forall c, sel c (map_visit m') = if ceqb c (cls q) then stk else sel c (map_visit m)) /\
         map_size m' = map_size m + match prev with Some _ => 0 | None => 1 end
     end).
Proof. intros E K V KK Q KQ. exact built_insert_exact. Qed.
Print Assumptions C45_insert.
Theorem C45_remove : forall (E : Env) K V (KK : Key K) Q (KQ : Key Q) (m : trie K V) (q : Q),
  built m ->
  (checked = false -> exists res, map_remove m q = Ret res) /\
  (forall res, map_remove m q = Ret res ->
     match sel (cls q) (map_visit m) with
     | [] => res = Err NotFound
     | e :: stk => exists m', res = Ok (m', e) /\ built m' /\
         (forall c, sel c (map_visit m') = if ceqb c (cls q) then stk else sel c (map_visit m)) /\
         map_size m' + 1 = map_size m
     end).
Proof. intros E K V KK Q KQ. exact built_remove_exact. Qed.
Print Assumptions C45_remove.
Theorem C45_transform : forall (E : Env) K V (KK : Key K) R (rdef : R) (rd : R -> R -> R) st (op : transform_op (K * V) V R) (m : trie K V),
  built m ->
  exists m' r o, map_transform rdef rd st op m = Ret (m', r, o) /\ built m' /\
    map_visit m' = flat_map (fun e => t_entry (tcall op e) e) (map_visit m) /\
    (forall f, op = TGeneric f -> monoid rdef rd -> r = fold_right rd rdef (map (fun e => t_red (f e)) (map_visit m))).
Proof. intros E K V KK R. exact built_transform_exact. Qed.
Print Assumptions C45_transform.
Theorem C45_transmute : forall (E : Env) K V (KK : Key K) R (rdef : R) (rd : R -> R -> R) S X (KS : Key S) (op : transmute_op (K * V) S X R) (m : trie K V),
  built m ->
  (forall e k v r, In e (map_visit m) -> mcall op e = KTransmuted k v r -> cls k = cls (fst e)) ->
  exists m' r, map_transmute rdef rd op m = Ret (m', r) /\ built m' /\
    map_visit m' = flat_map (fun e => m_entry (mcall op e)) (map_visit m) /\
    (forall f, op = MGeneric f -> monoid rdef rd -> r = fold_right rd rdef (map (fun e => m_red (f e)) (map_visit m))).
Proof. intros E K V KK R rdef rd S X KS. exact (built_transmute_exact rdef rd). Qed.
Print Assumptions C45_transmute.

(** Class 0 twice: removing uncovers the second entry, inserting replaces the
    first. *)
Example C45_ex : built (E := exE) ex_dup /\ map_visit ex_dup = [(0, 2, 2); (1, 1, 1); (0, 1, 1)] /\ map_size ex_dup = 3 /\
  map_find ex_dup (Num 0) = Ret (Ok (0, 2, 2)) /\
  (exists m', map_remove ex_dup (Num 0) = Ret (Ok (m', (0, 2, 2))) /\ map_find m' (Num 0) = Ret (Ok (0, 1, 1)) /\ map_size m' = 2) /\
  (exists m', map_insert num_into ex_dup (Num 0) 5 true = Ret (Ok (m', (0, 77, 5), Some (0, 2, 2))) /\
     map_find m' (Num 0) = Ret (Ok (0, 77, 5)) /\ sel (E := exE) 0 (map_visit m') = [(0, 77, 5); (0, 1, 1)] /\ map_size m' = 3) /\
  (exists m' r, map_transform 0 N.add Sequential (TGeneric (fun e => if snd e =? 2 then VDropped 1 else VTransformed (snd e + 10) 1)) ex_dup
     = Ret (m', r, Other) /\ r = 3 /\ map_visit m' = [(1, 1, 11); (0, 1, 11)]).
Proof.
  split; [exact ex_dup_built|]. split; [vm_compute; reflexivity|]. split; [vm_compute; reflexivity|]. split; [vm_compute; reflexivity|].
  split; [eexists; split; [vm_compute; reflexivity|vm_compute; auto]|].
  split; [eexists; split; [vm_compute; reflexivity|vm_compute; auto]|].
  do 2 eexists. split; [vm_compute; reflexivity|]. vm_compute. auto.
Qed.

(** * C22 *)
Theorem C22_reduction_tt_any : forall (E : Env) K V R (KK : Key K) (rdef : R) (rd : R -> R -> R) st
    both f h (m right : trie K V) m' r o,
  reachable m -> reachable right ->
  monoid rdef rd -> (forall a b, rd a b = rd b a) ->
  map_tt rdef rd st both (TGeneric f) (TGeneric h) m right = Ret (m', r, o) ->
  r = fold_right rd rdef (merged_reds (fun e e' => b_red (jcall both e e')) (fun e => t_red (f e)) (fun e' => t_red (h e'))
        (map_visit m) (map_visit right)).
Proof. intros E K V R KK. exact tt_reduction_any. Qed.
Print Assumptions C22_reduction_tt_any.
(** Operations outside [tame]: the contents are wrong, the reduction is right. *)
Example C22_reduction_tt_any_ex : reachable (E := exE) (ex_of [(0, 1); (1, 1)]) /\ reachable (E := exE) (ex_of [(0, 2)]) /\
  exists m', map_tt 0 N.add Sequential (JGeneric (fun e e' => BUnchangedR (100 * snd e')) false) (TGeneric (fun e => VUnchanged (snd e)))
      (TGeneric (fun _ => VUnchanged 7)) (ex_of [(0, 1); (1, 1)]) (ex_of [(0, 2)]) = Ret (m', 201, Other) /\
    map_size m' = 3 /\
    fold_right N.add 0 (merged_reds (fun e e' => 100 * snd e') (fun e => snd e) (fun _ => 7)
      (map_visit (ex_of [(0, 1); (1, 1)])) (map_visit (ex_of [(0, 2)]))) = 201.
Proof. split; [ex_of_reach|]. split; [ex_of_reach|]. eexists. split; [vm_compute; reflexivity|]. vm_compute. auto. Qed.

(** * C39 *)
Theorem C39_keys_tt_any : forall (E : Env) K V R (KK : Key K) (rdef : R) (rd : R -> R -> R) st
    both lop rop (m right : trie K V) m' r o,
  built m -> built right ->
  map_tt rdef rd st both lop rop m right = Ret (m', r, o) ->
  forall x, In x (map_visit m') ->
    (exists e, In e (map_visit m) /\ fst x = fst e) \/ (exists e', In e' (map_visit right) /\ fst x = fst e').
Proof. intros E K V R KK. exact tt_keys_any. Qed.
Print Assumptions C39_keys_tt_any.
Theorem C39_keys_tm_any : forall (E : Env) K V L W R (KK : Key K) (KL : Key L) (rdef : R) (rd : R -> R -> R) st
    both lop rop (m : trie K V) (right : trie L W) m' r o,
  built m -> built right ->
  (forall e k v x, In e (map_visit right) -> mcall rop e = KTransmuted k v x -> cls k = cls (fst e)) ->
  map_tm rdef rd st both lop rop m right = Ret (m', r, o) ->
  forall x, In x (map_visit m') ->
    (exists e, In e (map_visit m) /\ fst x = fst e) \/
    (exists e' z, In e' (map_visit right) /\ mcall rop e' = KTransmuted (fst x) (snd x) z).
Proof. intros E K V L W R KK KL. exact tm_keys_any. Qed.
Print Assumptions C39_keys_tm_any.
Theorem C39_keys_mt_any : forall (E : Env) K V L W R (KK : Key K) (KL : Key L) (rdef : R) (rd : R -> R -> R) st
    both lop rop (m : trie K V) (right : trie L W) m' r o,
  built m -> built right ->
  (forall e k v x, In e (map_visit m) -> mcall lop e = KTransmuted k v x -> cls k = cls (fst e)) ->
  map_mt rdef rd st both lop rop m right = Ret (m', r, o) ->
  forall x, In x (map_visit m') ->
    (exists e', In e' (map_visit right) /\ fst x = fst e') \/
    (exists e z, In e (map_visit m) /\ mcall lop e = KTransmuted (fst x) (snd x) z).
Proof. intros E K V L W R KK KL. exact mt_keys_any. Qed.
Print Assumptions C39_keys_mt_any.
(** transmute_with_transmuted makes all its entries. *)
Theorem C39_entries_mm_any : forall (E : Env) K V L W S X R (KK : Key K) (KL : Key L) (KS : Key S) (rdef : R) (rd : R -> R -> R)
    both lop rop (m : trie K V) (right : trie L W) (m' : trie S X) r,
  built m -> built right ->
  (forall e e' k v x, In e (map_visit m) -> In e' (map_visit right) -> cls (fst e) = cls (fst e') ->
     mcall both (e, e') = KTransmuted k v x -> cls k = cls (fst e)) ->
  (forall e k v x, In e (map_visit m) -> mcall lop e = KTransmuted k v x -> cls k = cls (fst e)) ->
  (forall e k v x, In e (map_visit right) -> mcall rop e = KTransmuted k v x -> cls k = cls (fst e)) ->
  map_mm rdef rd both lop rop m right = Ret (m', r) ->
  forall x, In x (map_visit m') ->
    (exists e e' z, In e (map_visit m) /\ In e' (map_visit right) /\ cls (fst e) = cls (fst e') /\ mcall both (e, e') = KTransmuted (fst x) (snd x) z) \/
    (exists e z, In e (map_visit m) /\ mcall lop e = KTransmuted (fst x) (snd x) z) \/
    (exists e' z, In e' (map_visit right) /\ mcall rop e' = KTransmuted (fst x) (snd x) z).
Proof. intros E K V L W S X R KK KL KS. exact mm_entries_any. Qed.
Print Assumptions C39_entries_mm_any.
(** A join of the map with class 0 twice. *)
Example C39_any_ex : built (E := exE) ex_dup /\
  exists m' r o, map_tt 0 N.add Sequential (JGeneric (fun e e' => BTransformed (snd e + snd e') 1) false) (TUnchanged 0) (TUnchanged 0)
      ex_dup (ex_of [(0, 3); (36, 3)]) = Ret (m', r, o) /\
    map_visit m' = [(0, 2, 5); (1, 1, 1); (0, 1, 1); (36, 3, 3)].
Proof. split; [exact ex_dup_built|]. do 3 eexists. split; [vm_compute; reflexivity|]. vm_compute. reflexivity. Qed.
