(** Maps a client can build through the public API. *)
From Coq Require Import NArith List Bool.
From Verif Require Import Base Words Flag Bia Node Api Trans Transform SpecT Joint SpecJ JointT.
Import ListNotations.

Section Reach.
Context {E : Env}.

(** [reachable m]: some finite sequence of API calls returned [m].  Clients
    keep the HashLike/Into contract: a converted key hashes and compares like
    the query it came from (traits.rs:241-247), and a transmuted key like the
    key it replaces (map.rs:128, [S: HashLike<K>] on an unsafe fn).
    transform_with_transformed is included where it is [tame] (SpecJ.v): on
    colliding keys other operations make it build lists with the same key
    twice, see C21_duplicate_refuted. *)
Inductive reachable : forall {K V : Type} {KK : Key K}, trie K V -> Prop :=
| reach_new K V (KK : Key K) : reachable (map_new (K := K) (V := V))
| reach_insert K V (KK : Key K) Q (KQ : Key Q) (into : Q -> K) (m : trie K V) q v replace m' e prev :
    reachable m -> cls (into q) = cls q ->
    map_insert into m q v replace = Ret (Ok (m', e, prev)) -> reachable m'
| reach_remove K V (KK : Key K) Q (KQ : Key Q) (m : trie K V) (q : Q) m' e :
    reachable m -> map_remove m q = Ret (Ok (m', e)) -> reachable m'
| reach_transform K V (KK : Key K) R (rdef : R) rd st op (m : trie K V) m' r o :
    reachable m -> map_transform rdef rd st op m = Ret (m', r, o) -> reachable m'
| reach_transmute K V (KK : Key K) S X (KS : Key S) R (rdef : R) rd op (m : trie K V) (m' : trie S X) r :
    reachable m -> m_keeps (mcall op) (map_visit m) ->
    map_transmute rdef rd op m = Ret (m', r) -> reachable m'
| reach_tm K V (KK : Key K) L W (KL : Key L) R (rdef : R) rd st both lop rop (m : trie K V) (right : trie L W) m' r o :
    reachable m -> reachable right -> m_keeps (mcall rop) (map_visit right) ->
    map_tm rdef rd st both lop rop m right = Ret (m', r, o) -> reachable m'
| reach_mt K V (KK : Key K) L W (KL : Key L) R (rdef : R) rd st both lop rop (m : trie K V) (right : trie L W) m' r o :
    reachable m -> reachable right -> m_keeps (mcall lop) (map_visit m) ->
    map_mt rdef rd st both lop rop m right = Ret (m', r, o) -> reachable m'
| reach_mm K V (KK : Key K) L W (KL : Key L) S X (KS : Key S) R (rdef : R) rd both lop rop
    (m : trie K V) (right : trie L W) (m' : trie S X) r :
    reachable m -> reachable right ->
    b_keeps (mcall both) (map_visit m) (map_visit right) -> m_keeps (mcall lop) (map_visit m) ->
    m_keeps (mcall rop) (map_visit right) ->
    map_mm rdef rd both lop rop m right = Ret (m', r) -> reachable m'
| reach_tt K V (KK : Key K) R (rdef : R) rd st both lop rop (m right : trie K V) m' r o :
    reachable m -> reachable right -> tame both lop rop (map_visit m) (map_visit right) ->
    map_tt rdef rd st both lop rop m right = Ret (m', r, o) -> reachable m'.

End Reach.
