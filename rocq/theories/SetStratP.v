(** The parallelism strategy and sets. *)
From Coq Require Import NArith Arith List Bool.
From Verif Require Import Base Node Api Trans Transform SpecT TransformP TransApiP Joint JointT Reach ReachP MapP TransMapP Sets StratP.
Import ListNotations.

Section Sets.
Context {E : Env} {K R : Type} {KK : Key K}.
Context (rdef : R) (rd : R -> R -> R).

Theorem set_transform_strategies (op : stransform_op K R) (s : tset K) : reachable s ->
  agree rdef rd (set_transform rdef rd Sequential op s) (set_transform rdef rd MiddleIndex op s).
Proof.
  intros H. unfold set_transform.
  destruct (transform_strategies rdef rd (transform_of op) s H) as (m' & r & r' & o & -> & -> & HM).
  repeat split. exact HM.
Qed.

Theorem set_tt_strategies (both : sjoint_op K R) lop rop (s right : tset K) : reachable s -> reachable right ->
  agree rdef rd (set_tt rdef rd Sequential both lop rop s right) (set_tt rdef rd MiddleIndex both lop rop s right).
Proof. intros H1 H2. apply map_tt_strategies; assumption. Qed.

End Sets.
