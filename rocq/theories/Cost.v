(** The work done by find: branch nodes visited and keys compared. *)
From Coq Require Import NArith List Bool.
From Verif Require Import Base Words Flag Bia Node Api.
Import ListNotations.
Open Scope N_scope.

Section Cost.
Context {E : Env} {K V : Type} {KK : Key K} {Q : Type} {KQ : Key Q}.

(** [l_find] (lnode.rs:75-85) counting key comparisons. *)
Fixpoint l_find_cost (l : lnode K V) (q : Q) : N :=
  match l with
  | LNL k _ n _ => if keqb k q then 1 else 1 + l_find_cost n q
  | LNS k _ _ _ => if keqb k q then 1 else 2
  end.

(** [m_find] (mnode.rs:22-31, cnode.rs:24-33) returning also the number of
    branch nodes entered and of keys compared. *)
Fixpoint m_find_cost (n : mnode K V) (q : Q) (flag : option Flag) {struct n}
  : outcome (option (K * V) * (N * N)) :=
  match n with
  | MC (BIA bits values extra) =>
      let* f := unwrap flag in
      match bat (BIA bits (map (fun c => (c, m_find_cost c)) values) extra) (fl_flag f) with
      | Ok (MC _, rec) =>
          let* nx := flag_next f in
          let* (r, (b, c)) := rec q nx in
          Ret (r, (1 + b, c))
      | Ok (ML l, _) => Ret (l_find l q, (1, l_find_cost l q))
      | Ok (MS s, _) => Ret (s_find s q, (1, 1))
      | Err _ => Ret (None, (1, 0))
      end
  | ML l => Ret (l_find l q, (0, l_find_cost l q))
  | MS s => Ret (s_find s q, (0, 1))
  end.

(** [map_find] (hash_trie.rs:29-34) with its cost. *)
Definition map_find_cost (m : trie K V) (q : Q) : outcome (result (K * V) trie_error * (N * N)) :=
  let* f := flag_new (hashk q) in
  let* (r, c) := m_find_cost m q (Some f) in
  match r with
  | Some e => Ret (Ok e, c)
  | None => Ret (Err NotFound, c)
  end.

End Cost.
