(** Laws of sets and maps, stated on their own. *)
From Coq Require Import NArith List Bool.
From Verif Require Import Base.
Import ListNotations.

(** An expression in union, intersection, difference and symmetric difference of
    named sets. *)
Inductive sexpr : Type :=
| XSet (i : nat)
| XUnion (x y : sexpr)
| XInter (x y : sexpr)
| XDiff (x y : sexpr)
| XXor (x y : sexpr).

(** Whether an element is in the set that an expression stands for, when [b i]
    says whether it is in set [i]. *)
Fixpoint xholds (b : nat -> bool) (x : sexpr) : bool :=
  match x with
  | XSet i => b i
  | XUnion x y => xholds b x || xholds b y
  | XInter x y => xholds b x && xholds b y
  | XDiff x y => xholds b x && negb (xholds b y)
  | XXor x y => xorb (xholds b x) (xholds b y)
  end.

(** Entries for one key, merged from left to right: the first key object, all
    values combined with [f]. *)
Definition ounion {K V} (f : V -> V -> V) (a b : option (K * V)) : option (K * V) :=
  match a, b with
  | Some e, Some e' => Some (fst e, f (snd e) (snd e'))
  | Some e, None => Some e
  | None, b => b
  end.

(** One answer after another. *)
Definition obind {A B} (o : option A) (f : A -> option B) : option B := match o with Some a => f a | None => None end.
