(** C17 for the joint operations and for sets: the parallelism strategy. *)
From Coq Require Import NArith Arith List Bool Lia Permutation.
From Verif Require Import Base Words Flag Bia Node Api Spec Trans Transform SpecT LoopP Joint JointT SpecJ Reach ReachP TransMapP Sets
  StratP SetStratP Hist Ex.
Import ListNotations.
Open Scope N_scope.

(** For the examples only; the theorems bind their own [Env]. *)
#[local] Existing Instance exE | 100.

(** [agree] (StratP.v): both calls return, with the same map, the same origin
    and, if the reduction is a monoid, the same reduced value; or both panic;
    or neither terminates.  No restriction on the operations. *)
Theorem C17_strategy_tt : forall (E : Env) K V R (KK : Key K) (rdef : R) (rd : R -> R -> R)
    (both : joint_op (K * V) V R) (lop rop : transform_op (K * V) V R) (m right : trie K V),
  reachable m -> reachable right ->
  agree rdef rd (map_tt rdef rd Sequential both lop rop m right) (map_tt rdef rd MiddleIndex both lop rop m right).
Proof. intros E K V R KK rdef rd. exact (map_tt_strategies rdef rd Sequential MiddleIndex). Qed.
Print Assumptions C17_strategy_tt.

(** Here the strategy only reaches the transforms of unmatched subtrees. *)
Theorem C17_strategy_tm : forall (E : Env) K V L W R (KK : Key K) (KL : Key L) (rdef : R) (rd : R -> R -> R)
    (both : transform_op ((K * V) * (L * W)) V R) lop rop (m : trie K V) (right : trie L W),
  reachable m -> reachable right ->
  agree rdef rd (map_tm rdef rd Sequential both lop rop m right) (map_tm rdef rd MiddleIndex both lop rop m right).
Proof. intros E K V L W R KK KL rdef rd. exact (map_tm_strategies rdef rd Sequential MiddleIndex). Qed.
Print Assumptions C17_strategy_tm.

Theorem C17_strategy_mt : forall (E : Env) K V L W R (KK : Key K) (KL : Key L) (rdef : R) (rd : R -> R -> R)
    (both : transform_op ((K * V) * (L * W)) W R) lop rop (m : trie K V) (right : trie L W),
  reachable m -> reachable right ->
  agree rdef rd (map_mt rdef rd Sequential both lop rop m right) (map_mt rdef rd MiddleIndex both lop rop m right).
Proof. intros E K V L W R KK KL rdef rd. exact (map_mt_strategies rdef rd Sequential MiddleIndex). Qed.
Print Assumptions C17_strategy_mt.

(** Sets. *)
Theorem C17_strategy_set_transform : forall (E : Env) K R (KK : Key K) (rdef : R) (rd : R -> R -> R) (op : stransform_op K R) (s : tset K),
  reachable s ->
  agree rdef rd (set_transform rdef rd Sequential op s) (set_transform rdef rd MiddleIndex op s).
Proof. intros E K R KK. exact set_transform_strategies. Qed.
Print Assumptions C17_strategy_set_transform.

Theorem C17_strategy_set_tt : forall (E : Env) K R (KK : Key K) (rdef : R) (rd : R -> R -> R)
    (both : sjoint_op K R) (lop rop : stransform_op K R) (s right : tset K),
  reachable s -> reachable right ->
  agree rdef rd (set_tt rdef rd Sequential both lop rop s right) (set_tt rdef rd MiddleIndex both lop rop s right).
Proof. intros E K R KK. exact set_tt_strategies. Qed.
Print Assumptions C17_strategy_set_tt.

(** The map with itself, which is neither a constant operation nor tame; a
    reduction that is no monoid tells the strategies apart, the map does not. *)
Definition ex_pair_os : list (op key N) :=
  [OInsert (0, 0) 10 false; OInsert (1, 0) 11 false; OInsert (4 * 2 ^ 5, 0) 13 false; OInsert (4 * 17, 0) 14 true; OInsert (4 * 9, 0) 18 false].
Definition ex_pair : trie key N := res_of map_new (run (E := exE) map_new ex_pair_os).
Lemma ex_pair_reach : reachable (E := exE) ex_pair.
Proof.
  assert (H : exists xs, run (E := exE) map_new ex_pair_os = Ret (ex_pair, xs)) by (eexists; vm_compute; reflexivity).
  destruct H as [xs H]. exact (run_reachable _ _ _ H).
Qed.
Definition ex_sboth (e e' : key * N) : bres N N := if snd e =? 11 then BUnchangedR 3 else BTransformed (snd e + snd e') 5.

Example C17_strategy_tt_ex : reachable (E := exE) ex_pair /\
  let run st := map_tt 1 (fun a b => 2 * a + b) st (JGeneric ex_sboth false) (TUnchanged 7) (TUnchanged 8) ex_pair ex_pair in
  exists m' r r' o, run Sequential = Ret (m', r, o) /\ run MiddleIndex = Ret (m', r', o) /\ r <> r'.
Proof.
  split; [exact ex_pair_reach|]. intros run. do 4 eexists. split; [vm_compute; reflexivity|]. split; [vm_compute; reflexivity|].
  vm_compute. discriminate.
Qed.
(** With a monoid. *)
Example C17_strategy_tt_monoid_ex :
  let run st := map_tt 0 N.add st (JGeneric ex_sboth false) (TUnchanged 7) (TUnchanged 8) ex_pair ex_m in
  exists m' r o, run Sequential = Ret (m', r, o) /\ run MiddleIndex = Ret (m', r, o) /\ map_size m' = 8 /\ r = 49.
Proof.
  intros run. do 3 eexists. split; [vm_compute; reflexivity|]. split; [vm_compute; reflexivity|]. split; vm_compute; reflexivity.
Qed.
(** Neither call terminates on lists of three colliding keys. *)
Example C17_strategy_tt_diverge_ex :
  let run st := map_tt 0 N.add st (JGeneric ex_sboth false) (TUnchanged 7) (TUnchanged 8) ex_m ex_m in
  run Sequential = Diverge /\ run MiddleIndex = Diverge.
Proof. split; vm_compute; reflexivity. Qed.
