(** Independent specification of sets: lists of keys, at most one per class.
    Nothing here mentions tries or maps. *)
From Coq Require Import NArith List Bool.
From Verif Require Import Base.
Import ListNotations.

Section SpecS.
Context {E : Env} {K : Type} {KK : Key K}.

(** The element equal to a key of class [c]; all other elements. *)
Definition member (c : C) (s : list K) : option K := find (fun k => ceqb (cls k) c) s.
Definition minus (c : C) (s : list K) : list K := filter (fun k => negb (ceqb (cls k) c)) s.

(** A call on a set. *)
Inductive sop : Type :=
| SInsert (k : K) (replace : bool)
| SRemove (k : K)
| SFind (k : K).

(** What the caller sees. *)
Inductive sobs : Type :=
| WInserted (stored : K) (prev : option K)
| WRefused (stored : K)
| WRemoved (k : K)
| WFound (k : K)
| WNotFound.

Definition sspec_step (s : list K) (o : sop) : list K * sobs :=
  match o with
  | SInsert k replace =>
      match member (cls k) s with
      | Some k' => if replace then (k :: minus (cls k) s, WInserted k (Some k')) else (s, WRefused k')
      | None => (k :: s, WInserted k None)
      end
  | SRemove k =>
      match member (cls k) s with
      | Some k' => (minus (cls k) s, WRemoved k')
      | None => (s, WNotFound)
      end
  | SFind k =>
      match member (cls k) s with
      | Some k' => (s, WFound k')
      | None => (s, WNotFound)
      end
  end.

Fixpoint sspec_run (s : list K) (os : list sop) : list K * list sobs :=
  match os with
  | [] => (s, [])
  | o :: os' =>
      let '(s1, x) := sspec_step s o in
      let '(s2, xs) := sspec_run s1 os' in
      (s2, x :: xs)
  end.

End SpecS.
Arguments sop : clear implicits.
Arguments sobs : clear implicits.

(** Two sets merged element by element: [fB] for common elements, [fL] and [fR]
    for the others. *)
Section Merge.
Context {E : Env} {K L S : Type} {KK : Key K} {KL : Key L}.
Definition olist {A} (o : option A) : list A := match o with Some a => [a] | None => [] end.
Definition smerge (fB : K -> L -> option S) (fL : K -> option S) (fR : L -> option S) (s : list K) (r : list L) : list S :=
  flat_map (fun k => olist (match member (cls k) r with Some l => fB k l | None => fL k end)) s ++
  flat_map (fun l => olist (match member (cls l) s with Some _ => None | None => fR l end)) r.
End Merge.
