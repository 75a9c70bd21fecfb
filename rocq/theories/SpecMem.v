(** The number of nodes of a trie. *)
From Coq Require Import NArith List.
From Verif Require Import Base Lean.
Import ListNotations.
Open Scope N_scope.

(** What is behind an [Arc] in a trie: for a branch its array of children
    (mnode.rs:6-10, cnode.rs:8-11); for a collision list one node for every entry,
    the last of which is a leaf (lnode.rs:6-9, :30-35, snode.rs:6-9). *)
Fixpoint nodes (s : shape) : N :=
  match s with
  | Branch _ l => 1 + fold_right N.add 0 (map nodes l)
  | Bucket _ n => n
  end.
