(** When the joint operations that traverse a list of either map do not
    return: in terms of what visit shows and of how deep find goes. *)
From Coq Require Import NArith List Bool.
From Verif Require Import Base Node Api Cost Trans SpecJ.
Import ListNotations.
Open Scope N_scope.

Section Stuck.
Context {E : Env}.

(** How many branches find goes through for a key (Cost.v). *)
Definition branches {K V Q} {KK : Key K} {KQ : Key Q} (m : trie K V) (q : Q) : N :=
  match map_find_cost m q with Ret (_, (b, _)) => b | _ => 0 end.

(** At the hash of some key both maps have several entries, and one of them at
    least three: the right one, or the left one if the right one keeps those
    entries deeper down. *)
Definition stuck {K V L W} {KK : Key K} {KL : Key L} (m : trie K V) (right : trie L W) : Prop :=
  exists q : K,
    if branches m q <? branches right q
    then (3 <= cnt (hashk q) (map_visit m))%nat /\ (2 <= cnt (hashk q) (map_visit right))%nat
    else (2 <= cnt (hashk q) (map_visit m))%nat /\ (3 <= cnt (hashk q) (map_visit right))%nat.

(** The constant operations for which transform_with_transformed does not look
    into two branches (cnode.rs:380-430): one map is kept as it is, or nothing is. *)
Definition skipped {A V R} (both : joint_op A V R) (lop rop : transform_op A V R) : Prop :=
  match both, lop, rop with
  | JUnchangedLR _, TUnchanged _, TRemoved _ | JUnchangedLR _, TRemoved _, TUnchanged _
  | JUnchangedL _, TUnchanged _, TRemoved _ | JUnchangedR _, TRemoved _, TUnchanged _
  | JRemoved _, TRemoved _, TRemoved _ => True
  | _, _, _ => False
  end.

(** The same for transform_with_transformed: two branches at the root and such
    operations do not get stuck. *)
Definition stuck_tt {K V R} {KK : Key K} (both : joint_op (K * V) V R) (lop rop : transform_op (K * V) V R) (m right : trie K V) : Prop :=
  stuck m right /\ (skipped both lop rop -> exists q : K, branches m q = 0 \/ branches right q = 0).

End Stuck.
