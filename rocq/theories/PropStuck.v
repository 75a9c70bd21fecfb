(** C28: exactly when transmute_with_transmuted and transform_with_transformed do
    not return.  The other two joint operations are in PropJoint.v. *)
From Coq Require Import NArith Arith List Bool Lia Permutation.
From Verif Require Import Base Words Flag Bia Node Api Spec Trans Transform SpecT Joint JointT SpecJ Reach Cost Stuck HangP Hist Ex PropJoint PropJointT.
Import ListNotations.
Open Scope N_scope.

(** For the examples only; the theorems bind their own [Env]. *)
#[local] Existing Instance exE | 100.

(** For all operations: a call that gets stuck satisfies the condition, and a
    call on maps that satisfy it does not return. *)
Theorem C28_stuck_mm : forall (E : Env) K V L W S X R (KK : Key K) (KL : Key L) (KS : Key S) (rdef : R) (rd : R -> R -> R)
    (both : transmute_op ((K * V) * (L * W)) S X R) lop rop (m : trie K V) (right : trie L W),
  reachable m -> reachable right ->
  (forall m' r, map_mm rdef rd both lop rop m right = Ret (m', r) -> ~ stuck m right) /\
  (map_mm rdef rd both lop rop m right = Diverge -> stuck m right).
Proof. intros E K V L W S X R KK KL KS. exact mm_stuck. Qed.
Print Assumptions C28_stuck_mm.
Theorem C28_stuck_tt : forall (E : Env) K V R (KK : Key K) (rdef : R) (rd : R -> R -> R) st both lop rop (m right : trie K V),
  reachable m -> reachable right ->
  (forall m' r o, map_tt rdef rd st both lop rop m right = Ret (m', r, o) -> ~ stuck_tt both lop rop m right) /\
  (map_tt rdef rd st both lop rop m right = Diverge -> stuck_tt both lop rop m right).
Proof. intros E K V R KK. exact tt_stuck. Qed.
Print Assumptions C28_stuck_tt.

(** With the contracts of the operations there are no panics, and the condition
    is exact. *)
Theorem C28_exact_mm : forall (E : Env) K V L W S X R (KK : Key K) (KL : Key L) (KS : Key S) (rdef : R) (rd : R -> R -> R)
    (both : transmute_op ((K * V) * (L * W)) S X R) lop rop (m : trie K V) (right : trie L W),
  reachable m -> reachable right ->
  (forall e e' k v x, In e (map_visit m) -> In e' (map_visit right) -> cls (fst e) = cls (fst e') ->
     mcall both (e, e') = KTransmuted k v x -> cls k = cls (fst e)) ->
  (forall e k v x, In e (map_visit m) -> mcall lop e = KTransmuted k v x -> cls k = cls (fst e)) ->
  (forall e k v x, In e (map_visit right) -> mcall rop e = KTransmuted k v x -> cls k = cls (fst e)) ->
  ((exists m' r, map_mm rdef rd both lop rop m right = Ret (m', r)) <-> ~ stuck m right) /\
  (map_mm rdef rd both lop rop m right = Diverge <-> stuck m right).
Proof. intros E K V L W S X R KK KL KS. exact mm_exact. Qed.
Print Assumptions C28_exact_mm.
Theorem C28_exact_tt : forall (E : Env) K V R (KK : Key K) (rdef : R) (rd : R -> R -> R) st both lop rop (m right : trie K V),
  reachable m -> reachable right -> tame both lop rop (map_visit m) (map_visit right) ->
  ((exists m' r o, map_tt rdef rd st both lop rop m right = Ret (m', r, o)) <-> ~ stuck_tt both lop rop m right) /\
  (map_tt rdef rd st both lop rop m right = Diverge <-> stuck_tt both lop rop m right).
Proof. intros E K V R KK. exact tt_exact. Qed.
Print Assumptions C28_exact_tt.

(** Three entries with hash 0 against two: it depends on which of them lie
    deeper.  [ex_m] has three below thirteen branches, [ex_low] three below one,
    [ex_t] two below three. *)
Definition ex_low : trie key N := ex_of [(0, 1); (1, 1); (2, 1); (36, 1)].
Example C28_exact_ex :
  reachable (E := exE) ex_m /\ reachable (E := exE) ex_low /\ reachable (E := exE) ex_t /\
  branches ex_m (0, 0) = 13 /\ branches ex_low (0, 0) = 1 /\ branches ex_t (0, 0) = 3 /\
  cnt 0 (map_visit ex_m) = 3%nat /\ cnt 0 (map_visit ex_low) = 3%nat /\ cnt 0 (map_visit ex_t) = 2%nat /\
  stuck ex_low ex_t /\ stuck ex_t ex_low /\
  map_tt 0 N.add Sequential (JUnchangedLR 0) (TUnchanged 0) (TUnchanged 0) ex_low ex_t = Diverge /\
  map_tt 0 N.add Sequential (JUnchangedLR 0) (TUnchanged 0) (TUnchanged 0) ex_t ex_low = Diverge /\
  map_mm (S := key) (X := N) 0 N.add (MRemoved 0) (MRemoved 0) (MRemoved 0) ex_low ex_t = Diverge /\
  (exists m' r, map_tt 0 N.add Sequential (JUnchangedLR 0) (TUnchanged 0) (TUnchanged 0) ex_m ex_t = Ret (m', r, Other)) /\
  (exists m' r, map_tt 0 N.add Sequential (JUnchangedLR 0) (TUnchanged 0) (TUnchanged 0) ex_t ex_m = Ret (m', r, Other)) /\
  (exists m' r, map_mm (S := key) (X := N) 0 N.add (MRemoved 0) (MRemoved 0) (MRemoved 0) ex_m ex_t = Ret (m', r)) /\
  (exists r, map_tt 0 N.add Sequential (JUnchangedLR 0) (TUnchanged 0) (TRemoved 0) ex_low ex_t = Ret (ex_low, r, Self)) /\
  skipped (A := key * N) (V := N) (JUnchangedLR 0) (TUnchanged 0) (TRemoved 0).
Proof.
  split; [exact ex_reach|]. split; [eapply ex_of_reach; vm_compute; reflexivity|]. split; [exact ex_t_reach|].
  do 6 (split; [vm_compute; reflexivity|]).
  split; [exists (0, 0); vm_compute; split; repeat constructor|]. split; [exists (0, 0); vm_compute; split; repeat constructor|].
  do 3 (split; [vm_compute; reflexivity|]).
  do 3 (split; [do 2 eexists; vm_compute; reflexivity|]). split; [eexists; vm_compute; reflexivity|exact I].
Qed.
