(** Histories of insert, remove and find calls, on the trie and on the
    specification. *)
From Coq Require Import NArith List Bool.
From Verif Require Import Base Words Flag Bia Node Api Spec.
Import ListNotations.

Section Hist.
Context {E : Env} {K V : Type} {KK : Key K}.

(** One call. *)
Inductive op : Type :=
| OInsert (k : K) (v : V) (replace : bool)
| ORemove (k : K)
| OFind (k : K).

(** What the caller sees. *)
Inductive obs : Type :=
| VInserted (stored : K * V) (prev : option (K * V))
| VRefused (stored : K * V)
| VRemoved (e : K * V)
| VFound (e : K * V)
| VNotFound.

(** One call on the trie; the current map is replaced by the returned one. *)
Definition step (m : trie K V) (o : op) : outcome (trie K V * obs) :=
  match o with
  | OInsert k v replace =>
      let* r := map_insert (fun x => x) m k v replace in
      match r with
      | Ok (m', e, prev) => Ret (m', VInserted e prev)
      | Err e => Ret (m, VRefused e)
      end
  | ORemove k =>
      let* r := map_remove m k in
      match r with
      | Ok (m', e) => Ret (m', VRemoved e)
      | Err _ => Ret (m, VNotFound)
      end
  | OFind k =>
      let* r := map_find m k in
      match r with
      | Ok e => Ret (m, VFound e)
      | Err _ => Ret (m, VNotFound)
      end
  end.

Fixpoint run (m : trie K V) (os : list op) : outcome (trie K V * list obs) :=
  match os with
  | [] => Ret (m, [])
  | o :: os' =>
      let* (m1, x) := step m o in
      let* (m2, xs) := run m1 os' in
      Ret (m2, x :: xs)
  end.

(** The same on an association list. *)
Definition spec_step (l : list (K * V)) (o : op) : list (K * V) * obs :=
  match o with
  | OInsert k v replace =>
      match spec_insert k v replace l with
      | Ok (l', prev) => (l', VInserted (k, v) prev)
      | Err e => (l, VRefused e)
      end
  | ORemove k =>
      match spec_remove (cls k) l with
      | Some (l', e) => (l', VRemoved e)
      | None => (l, VNotFound)
      end
  | OFind k =>
      match lookup (cls k) l with
      | Some e => (l, VFound e)
      | None => (l, VNotFound)
      end
  end.

Fixpoint spec_run (l : list (K * V)) (os : list op) : list (K * V) * list obs :=
  match os with
  | [] => (l, [])
  | o :: os' =>
      let '(l1, x) := spec_step l o in
      let '(l2, xs) := spec_run l1 os' in
      (l2, x :: xs)
  end.

End Hist.
Arguments op : clear implicits.
Arguments obs : clear implicits.
