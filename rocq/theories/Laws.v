(** Client programs that combine several bulk operations.  No code of /repo
    corresponds to them: they only call transform_with_transformed of sets
    (set.rs:154-183) and transform_with_transfuted of maps (map.rs:159-179). *)
From Coq Require Import NArith List Bool.
From Verif Require Import Base Words Flag Bia Node Api Trans Transform Joint JointT Sets Brackets SpecLaws.
Import ListNotations.

Section SetExpr.
Context {E : Env} {K : Type} {KK : Key K} (st : strategy).

(** A set expression, with one call for each operation.  Reductions are not
    used. *)
Definition combine (both : sjoint_op K unit) (lop rop : stransform_op K unit) (s t : outcome (tset K)) : outcome (tset K) :=
  let* s := s in
  let* t := t in
  let* r := set_tt tt (fun _ _ => tt) st both lop rop s t in
  Ret (fst (fst r)).
Fixpoint xeval (env : nat -> tset K) (x : sexpr) : outcome (tset K) :=
  match x with
  | XSet i => Ret (env i)
  | XUnion x y => combine (SJUnchangedLR tt) (STUnchanged tt) (STUnchanged tt) (xeval env x) (xeval env y)
  | XInter x y => combine (SJUnchangedLR tt) (STRemoved tt) (STRemoved tt) (xeval env x) (xeval env y)
  | XDiff x y => combine (SJRemoved tt) (STUnchanged tt) (STRemoved tt) (xeval env x) (xeval env y)
  | XXor x y => combine (SJRemoved tt) (STUnchanged tt) (STUnchanged tt) (xeval env x) (xeval env y)
  end.
End SetExpr.

Section UnionWith.
Context {E : Env} {K V : Type} {KK : Key K} (st : strategy) (f : V -> V -> V).

(** All entries of both maps, values of common keys combined with [f]. *)
Definition union_with (m right : trie K V) : outcome (trie K V) :=
  let* r := map_tf tt (fun _ _ => tt) st
    (TGeneric (fun p => VTransformed (f (snd (fst p)) (snd (snd p))) tt)) (TUnchanged tt)
    (SMGeneric (fun e => SKTransmuted (snd e) tt)) m right in
  Ret (fst (fst r)).
(** Any number of maps, two at a time. *)
Fixpoint merge_all (t : btree (trie K V)) : outcome (trie K V) :=
  match t with
  | BDef => Ret map_new
  | BLeaf m => Ret m
  | BNode l r =>
      let* m := merge_all l in
      let* m2 := merge_all r in
      union_with m m2
  end.
End UnionWith.

(** [m.find(&q).ok()]. *)
Definition got {E : Env} {K V : Type} {KK : Key K} {Q} {KQ : Key Q} (m : trie K V) (q : Q) : option (K * V) :=
  match map_find m q with Ret (Ok e) => Some e | _ => None end.
