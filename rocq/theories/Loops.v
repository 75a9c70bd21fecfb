(** Client programs that do with single calls what a bulk operation does in one
    call.  No code of /repo corresponds to them: they only use [visit], [find],
    [insert] and [remove] (hash_trie.rs:29-63, map.rs:88-112, set.rs:86-109). *)
From Coq Require Import NArith List Bool.
From Verif Require Import Base Words Flag Bia Node Api.
Import ListNotations.

(** A [for] loop that carries a map. *)
Fixpoint each {A M : Type} (l : list A) (a : M) (body : M -> A -> outcome M) : outcome M :=
  match l with
  | [] => Ret a
  | x :: l' => let* a' := body a x in each l' a' body
  end.

Section Loops.
Context {E : Env} {K V L W S X : Type} {KK : Key K} {KL : Key L} {KS : Key S}.

(** [if let Some((k, v)) = o { a = a.insert(k, v, false).unwrap().0 }]: a panic
    if the key is there already. *)
Definition put (a : trie S X) (o : option (S * X)) : outcome (trie S X) :=
  match o with
  | Some (k, v) =>
      let* r := map_insert (fun k => k) a k v false in
      let* t := unwrap_ok r in
      Ret (fst (fst t))
  | None => Ret a
  end.

(** A map made entry by entry from another one. *)
Definition loop_map (f : K * V -> option (S * X)) (m : trie K V) : outcome (trie S X) :=
  each (map_visit m) map_new (fun a e => put a (f e)).

(** The loop over the entries of the right map that the left one has no key for. *)
Definition loop_right (fR : L * W -> option (S * X)) (m : trie K V) (right : trie L W) (a : trie S X) : outcome (trie S X) :=
  each (map_visit right) a (fun a e' =>
    let* r := map_find m (fst e') in
    match r with Ok _ => Ret a | Err _ => put a (fR e') end).

(** A map made entry by entry from two others. *)
Definition loop_merge (fB : K * V -> L * W -> option (S * X)) (fL : K * V -> option (S * X)) (fR : L * W -> option (S * X))
  (m : trie K V) (right : trie L W) : outcome (trie S X) :=
  let* a := each (map_visit m) map_new (fun a e =>
    let* r := map_find right (fst e) in
    put a (match r with Ok e' => fB e e' | Err _ => fL e end)) in
  loop_right fR m right a.
End Loops.

Section Update.
Context {E : Env} {K V L W : Type} {KK : Key K} {KL : Key L}.

(** [a.insert(k, v, true).unwrap().0] or [a.remove(&e.0).unwrap().0]: the second
    panics if the key is not there. *)
Definition change (a : trie K V) (e : K * V) (o : option V) : outcome (trie K V) :=
  match o with
  | Some v =>
      let* r := map_insert (fun k => k) a (fst e) v true in
      let* t := unwrap_ok r in
      Ret (fst (fst t))
  | None =>
      let* r := map_remove a (fst e) in
      let* t := unwrap_ok r in
      Ret (fst t)
  end.

(** A map changed entry by entry. *)
Definition loop_change (f : K * V -> option V) (m : trie K V) : outcome (trie K V) :=
  each (map_visit m) m (fun a e => change a e (f e)).

(** A map changed entry by entry according to another one, whose remaining
    entries are then put in. *)
Definition loop_absorb (fB : K * V -> L * W -> option V) (fL : K * V -> option V) (fR : L * W -> option (K * V))
  (m : trie K V) (right : trie L W) : outcome (trie K V) :=
  let* a := each (map_visit m) m (fun a e =>
    let* r := map_find right (fst e) in
    change a e (match r with Ok e' => fB e e' | Err _ => fL e end)) in
  loop_right fR m right a.
End Update.

Section SetLoops.
Context {E : Env} {K L S : Type} {KK : Key K} {KL : Key L} {KS : Key S}.

(** The same for sets. *)
Definition sput (a : tset S) (o : option S) : outcome (tset S) :=
  match o with
  | Some k =>
      let* r := set_insert (fun k => k) a k false in
      let* t := unwrap_ok r in
      Ret (fst (fst t))
  | None => Ret a
  end.
Definition sloop_map (f : K -> option S) (s : tset K) : outcome (tset S) :=
  each (set_visit s) set_new (fun a k => sput a (f k)).
Definition sloop_merge (fB : K -> L -> option S) (fL : K -> option S) (fR : L -> option S)
  (s : tset K) (right : tset L) : outcome (tset S) :=
  let* a := each (set_visit s) set_new (fun a k =>
    let* r := set_find right k in
    sput a (match r with Ok l => fB k l | Err _ => fL k end)) in
  each (set_visit right) a (fun a l =>
    let* r := set_find s l in
    match r with Ok _ => Ret a | Err _ => sput a (fR l) end).
End SetLoops.

Section SetUpdate.
Context {E : Env} {K L : Type} {KK : Key K} {KL : Key L}.
(** [a = a.remove(&k).unwrap().0] for the elements that are to go. *)
Definition sloop_filter (f : K -> bool) (s : tset K) : outcome (tset K) :=
  each (set_visit s) s (fun a k =>
    if f k then Ret a
    else let* r := set_remove a k in
         let* t := unwrap_ok r in
         Ret (fst t)).
End SetUpdate.
