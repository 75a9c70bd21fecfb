(** Independent specification for maps that may hold several entries under one
    key: for every key a stack of entries.  Nothing here mentions tries. *)
From Coq Require Import NArith List Bool.
From Verif Require Import Base Spec.
Import ListNotations.

Section Stack.
Context {E : Env} {K V : Type} {KK : Key K}.

(** The entries with a key of class [c], in order. *)
Definition sel (c : C) (l : list (K * V)) : list (K * V) := filter (fun e => ceqb (ecls e) c) l.

(** Insertion replaces the top of the stack of its key, or is refused with it. *)
Definition stack_insert (k : K) (v : V) (replace : bool) (st : list (K * V))
  : result (list (K * V) * option (K * V)) (K * V) :=
  match st with
  | [] => Ok ([(k, v)], None)
  | e :: rest => if replace then Ok ((k, v) :: rest, Some e) else Err e
  end.

(** [l'] is [l] with [st] as the stack of class [c]. *)
Definition restack (c : C) (st l l' : list (K * V)) : Prop :=
  forall c', sel c' l' = if ceqb c' c then st else sel c' l.

End Stack.
