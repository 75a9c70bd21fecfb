(** The shape of a trie, and the maps that were built without calling remove
    since the last transmute. *)
From Coq Require Import NArith List Bool.
From Verif Require Import Base Words Flag Bia Node Api Trans Transform SpecT Joint SpecJ JointT Reach.
Import ListNotations.
Open Scope N_scope.

(** The nodes of a trie without keys and values: the bits of a branch
    (bit_indexed_array.rs:5-9) with its children, and for a collision list or
    leaf the hash and the number of entries. *)
Inductive shape : Set :=
| Branch (bits : N) (children : list shape)
| Bucket (h : N) (entries : N).

Section Lean.
Context {E : Env} {K V : Type} {KK : Key K}.

(** mnode.rs:6-10. *)
Fixpoint shape_of (n : mnode K V) : shape :=
  match n with
  | MC (BIA bits values _) => Branch bits (map shape_of values)
  | ML l => Bucket (hashk (l_key l)) (l_size l)
  | MS s => Bucket (hashk (s_key s)) 1
  end.

(** A branch that the code would have to keep: not empty, and its only child, if
    it has only one, is a branch (cnode.rs:159-166, :1604-1612, :1615-1630). *)
Definition forked (values : list (mnode K V)) : bool :=
  match values with [] | [ML _] | [MS _] => false | _ => true end.
Fixpoint lean (n : mnode K V) : bool :=
  match n with
  | MC (BIA _ values _) => forked values && forallb lean values
  | _ => true
  end.

(** Below the root. *)
Definition kids (n : mnode K V) : bool :=
  match n with MC (BIA _ values _) => forallb lean values | _ => true end.

(** The root is a branch.  It is one in a new map (hash_trie.rs:21-25) and stays
    one under insert; hash_trie.rs:65-195 also makes a leaf or list the root. *)
Definition rooted (n : mnode K V) : bool := match n with MC _ => true | _ => false end.

End Lean.

Section Unpruned.
Context {E : Env}.

(** [reachable] (Reach.v) without remove (hash_trie.rs:51-59), except in the
    making of an operand that is transmuted: transmute and the transmuting sides of
    the joint calls build every node anew (cnode.rs:224-281, :1604-1630). *)
Inductive unpruned : forall {K V : Type} {KK : Key K}, trie K V -> Prop :=
| unp_new K V (KK : Key K) : unpruned (map_new (K := K) (V := V))
| unp_insert K V (KK : Key K) Q (KQ : Key Q) (into : Q -> K) (m : trie K V) q v replace m' e prev :
    unpruned m -> cls (into q) = cls q ->
    map_insert into m q v replace = Ret (Ok (m', e, prev)) -> unpruned m'
| unp_transform K V (KK : Key K) R (rdef : R) rd st op (m : trie K V) m' r o :
    unpruned m -> map_transform rdef rd st op m = Ret (m', r, o) -> unpruned m'
| unp_transmute K V (KK : Key K) S X (KS : Key S) R (rdef : R) rd op (m : trie K V) (m' : trie S X) r :
    reachable m -> m_keeps (mcall op) (map_visit m) ->
    map_transmute rdef rd op m = Ret (m', r) -> unpruned m'
| unp_tm K V (KK : Key K) L W (KL : Key L) R (rdef : R) rd st both lop rop (m : trie K V) (right : trie L W) m' r o :
    unpruned m -> reachable right -> m_keeps (mcall rop) (map_visit right) ->
    map_tm rdef rd st both lop rop m right = Ret (m', r, o) -> unpruned m'
| unp_mt K V (KK : Key K) L W (KL : Key L) R (rdef : R) rd st both lop rop (m : trie K V) (right : trie L W) m' r o :
    reachable m -> unpruned right -> m_keeps (mcall lop) (map_visit m) ->
    map_mt rdef rd st both lop rop m right = Ret (m', r, o) -> unpruned m'
| unp_mm K V (KK : Key K) L W (KL : Key L) S X (KS : Key S) R (rdef : R) rd both lop rop
    (m : trie K V) (right : trie L W) (m' : trie S X) r :
    reachable m -> reachable right ->
    b_keeps (mcall both) (map_visit m) (map_visit right) -> m_keeps (mcall lop) (map_visit m) ->
    m_keeps (mcall rop) (map_visit right) ->
    map_mm rdef rd both lop rop m right = Ret (m', r) -> unpruned m'
| unp_tt K V (KK : Key K) R (rdef : R) rd st both lop rop (m right : trie K V) m' r o :
    unpruned m -> unpruned right -> tame both lop rop (map_visit m) (map_visit right) ->
    map_tt rdef rd st both lop rop m right = Ret (m', r, o) -> unpruned m'.

(** Built from a new map by insert alone. *)
Inductive grown {K V : Type} {KK : Key K} : trie K V -> Prop :=
| grown_new : grown map_new
| grown_insert Q (KQ : Key Q) (into : Q -> K) (m : trie K V) q v replace m' e prev :
    grown m -> cls (into q) = cls q ->
    map_insert into m q v replace = Ret (Ok (m', e, prev)) -> grown m'.

End Unpruned.
