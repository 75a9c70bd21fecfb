(** The order of hashes that visit follows, stated on its own. *)
From Coq Require Import NArith List.
From Verif Require Import Base.
Open Scope N_scope.

(** The [i]th digit of [h] in base [2 ^ b], the lowest one first. *)
Definition digit (b h i : N) : N := h / 2 ^ (i * b) mod 2 ^ b.
(** The first digit in which they differ decides. *)
Definition earlier (b h h' : N) : Prop :=
  exists i, (forall j, j < i -> digit b h j = digit b h' j) /\ digit b h i < digit b h' i.

(** The entries whose keys have hash [h], in order. *)
Definition group {E : Env} {K V : Type} {KK : Key K} (h : N) (l : list (K * V)) : list (K * V) :=
  filter (fun e => hash (cls (fst e)) =? h) l.
