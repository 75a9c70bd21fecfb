(** The public map and set operations new, size, find, insert, remove, visit
    (src/hash_trie.rs, src/map.rs, src/set.rs). *)
From Coq Require Import NArith List Bool.
From Verif Require Import Base Words Flag Bia Node.
Import ListNotations.
Open Scope N_scope.

Section Map.
Context {E : Env} {K V : Type} {KK : Key K}.

(** hash_trie.rs:6-8 [struct HashTrie] and map.rs:70-72 [struct HashTrieMap] are
    one-field wrappers around the root; the model uses the root itself. *)
Definition trie : Type := mnode K V.

(** hash_trie.rs:12-16 and :205-209, map.rs:76-80; mnode.rs:357-363 and
    cnode.rs:1640-1644 give the empty branch as the default node. *)
Definition map_new : trie := MC bdefault.

(** hash_trie.rs:25-27, map.rs:83-85. *)
Definition map_size (m : trie) : N := m_size m.

(** hash_trie.rs:61-63, map.rs:110-112.  The list of calls made to [op]. *)
Definition map_visit (m : trie) : list (K * V) := m_visit m.

(** results.rs:18-23, [HashTrieError]. *)
Inductive trie_error : Set := NotFound.

Section Query.
Context {Q : Type} {KQ : Key Q}.

(** hash_trie.rs:29-34, map.rs:88-90. *)
Definition map_find (m : trie) (q : Q) : outcome (result (K * V) trie_error) :=
  let* f := flag_new (hashk q) in
  let* r := m_find m q (Some f) in
  match r with
  | Some e => Ret (Ok e)
  | None => Ret (Err NotFound)
  end.

(** hash_trie.rs:36-49, map.rs:95-102.  [into] is [L: Into<K>]; [v] is
    [value.into()].  On success: the new map, the entry the two returned
    pointers point to, and the previous pair. *)
Definition map_insert (into : Q -> K) (m : trie) (q : Q) (v : V) (replace : bool)
  : outcome (result (trie * (K * V) * option (K * V)) (K * V)) :=
  let* f := flag_new (hashk q) in
  let* r := m_insert m q (into q) v (Some f) replace in
  match r with
  | IFound k' v' => Ret (Err (k', v'))
  | IC c k' v' prev => Ret (Ok (MC c, (k', v'), prev))
  | IL l k' v' prev => Ret (Ok (ML l, (k', v'), prev))
  | IS s k' v' prev => Ret (Ok (MS s, (k', v'), prev))
  end.

(** hash_trie.rs:51-59, map.rs:105-107. *)
Definition map_remove (m : trie) (q : Q) : outcome (result (trie * (K * V)) trie_error) :=
  let* f := flag_new (hashk q) in
  let* r := m_remove m q (Some f) in
  match r with
  | RNotFound => Ret (Err NotFound)
  | RC c k v => Ret (Ok (MC c, (k, v)))
  | RL l k v => Ret (Ok (ML l, (k, v)))
  | RS s k v => Ret (Ok (MS s, (k, v)))
  | RZ k v => Ret (Ok (map_new, (k, v)))
  end.

End Query.
End Map.
Arguments trie : clear implicits.

(** * Sets *)
Section Set_.
Context {E : Env} {K : Type} {KK : Key K}.

(** set.rs:68-70, [struct HashTrieSet]: a trie with unit values. *)
Definition tset : Type := trie K unit.

(** set.rs:74-78. *)
Definition set_new : tset := map_new.
(** set.rs:81-83. *)
Definition set_size (s : tset) : N := map_size s.
(** set.rs:107-109. *)
Definition set_visit (s : tset) : list K := map fst (map_visit s).

Section Query.
Context {Q : Type} {KQ : Key Q}.

(** set.rs:86-88. *)
Definition set_find (s : tset) (q : Q) : outcome (result K trie_error) :=
  let* r := map_find s q in
  match r with Ok (k, _) => Ret (Ok k) | Err e => Ret (Err e) end.

(** set.rs:92-99. *)
Definition set_insert (into : Q -> K) (s : tset) (q : Q) (replace : bool)
  : outcome (result (tset * K * option K) K) :=
  let* r := map_insert into s q tt replace in
  match r with
  | Ok (s', (k, _), prev) => Ret (Ok (s', k, option_map fst prev))
  | Err (k, _) => Ret (Err k)
  end.

(** set.rs:102-104. *)
Definition set_remove (s : tset) (q : Q) : outcome (result (tset * K) trie_error) :=
  let* r := map_remove s q in
  match r with
  | Ok (s', (k, _)) => Ret (Ok (s', k))
  | Err e => Ret (Err e)
  end.

End Query.
End Set_.
Arguments tset : clear implicits.
