(** When a loop of single calls has done what a bulk operation did. *)
From Coq Require Import NArith List Bool Permutation.
From Verif Require Import Base Words Flag Bia Node Api Reach Trans MapP.
Import ListNotations.

(** The value that a transformation leaves. *)
Definition t_val {V R} (o : vres V R) (v : V) : option V :=
  match o with
  | VUnchanged _ => Some v
  | VTransformed v' _ => Some v'
  | VDropped _ => None
  end.

Section Agrees.
Context {E : Env} {S X : Type} {KS : Key S}.
(** The loop ends with a map that no call tells from [m'].  In debug builds it
    may be stopped by the depth check of insert and remove (C11) instead. *)
Definition agrees (o : outcome (trie S X)) (m' : trie S X) : Prop :=
  (o = Panic /\ checked = true) \/ exists a, o = Ret a /\ reachable a /\ same a m'.

(** Same observations of two sets. *)
Definition ssame (s t : tset S) : Prop :=
  (forall Q (KQ : Key Q) (q : Q), set_find s q = set_find t q) /\ set_size s = set_size t /\ Permutation (set_visit s) (set_visit t).
Definition sagrees (o : outcome (tset S)) (s' : tset S) : Prop :=
  (o = Panic /\ checked = true) \/ exists a, o = Ret a /\ reachable a /\ ssame a s'.
End Agrees.
