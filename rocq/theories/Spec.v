(** Independent specification: finite maps as association lists with at most
    one entry per key class.  Nothing here mentions tries. *)
From Coq Require Import NArith List Bool Permutation.
From Verif Require Import Base.
Import ListNotations.

Section Spec.
Context {E : Env} {K V : Type} {KK : Key K}.

(** The class of an entry's key. *)
Definition ecls (e : K * V) : C := cls (fst e).

(** The entry stored under a key of class [c]. *)
Definition lookup (c : C) (l : list (K * V)) : option (K * V) :=
  find (fun e => ceqb (ecls e) c) l.

(** All entries except those of class [c]. *)
Definition without (c : C) (l : list (K * V)) : list (K * V) :=
  filter (fun e => negb (ceqb (ecls e) c)) l.

(** No two entries have equal keys. *)
Definition uniq (l : list (K * V)) : Prop := NoDup (map ecls l).

(** Insertion into a finite map: refused with the stored pair, or the new map
    and the previous pair. *)
Definition spec_insert (k : K) (v : V) (replace : bool) (l : list (K * V))
  : result (list (K * V) * option (K * V)) (K * V) :=
  match lookup (cls k) l with
  | Some e => if replace then Ok ((k, v) :: without (cls k) l, Some e) else Err e
  | None => Ok ((k, v) :: l, None)
  end.

(** Removal from a finite map. *)
Definition spec_remove (c : C) (l : list (K * V)) : option (list (K * V) * (K * V)) :=
  match lookup c l with
  | Some e => Some (without c l, e)
  | None => None
  end.

End Spec.
