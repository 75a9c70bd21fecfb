(** Maps a client can build through the public API, with any use of
    transform_with_transformed. *)
From Coq Require Import NArith List Bool.
From Verif Require Import Base Words Flag Bia Node Api Trans Transform SpecT Joint SpecJ JointT.
Import ListNotations.

Section Built.
Context {E : Env}.

(** [reachable] (Reach.v) without the [tame] condition on
    transform_with_transformed.  The contracts on converted and transmuted keys
    stay (traits.rs:241-247, map.rs:128). *)
Inductive built : forall {K V : Type} {KK : Key K}, trie K V -> Prop :=
| built_new K V (KK : Key K) : built (map_new (K := K) (V := V))
| built_insert K V (KK : Key K) Q (KQ : Key Q) (into : Q -> K) (m : trie K V) q v replace m' e prev :
    built m -> cls (into q) = cls q ->
    map_insert into m q v replace = Ret (Ok (m', e, prev)) -> built m'
| built_remove K V (KK : Key K) Q (KQ : Key Q) (m : trie K V) (q : Q) m' e :
    built m -> map_remove m q = Ret (Ok (m', e)) -> built m'
| built_transform K V (KK : Key K) R (rdef : R) rd st op (m : trie K V) m' r o :
    built m -> map_transform rdef rd st op m = Ret (m', r, o) -> built m'
| built_transmute K V (KK : Key K) S X (KS : Key S) R (rdef : R) rd op (m : trie K V) (m' : trie S X) r :
    built m -> m_keeps (mcall op) (map_visit m) ->
    map_transmute rdef rd op m = Ret (m', r) -> built m'
| built_tm K V (KK : Key K) L W (KL : Key L) R (rdef : R) rd st both lop rop (m : trie K V) (right : trie L W) m' r o :
    built m -> built right -> m_keeps (mcall rop) (map_visit right) ->
    map_tm rdef rd st both lop rop m right = Ret (m', r, o) -> built m'
| built_mt K V (KK : Key K) L W (KL : Key L) R (rdef : R) rd st both lop rop (m : trie K V) (right : trie L W) m' r o :
    built m -> built right -> m_keeps (mcall lop) (map_visit m) ->
    map_mt rdef rd st both lop rop m right = Ret (m', r, o) -> built m'
| built_mm K V (KK : Key K) L W (KL : Key L) S X (KS : Key S) R (rdef : R) rd both lop rop
    (m : trie K V) (right : trie L W) (m' : trie S X) r :
    built m -> built right ->
    b_keeps (mcall both) (map_visit m) (map_visit right) -> m_keeps (mcall lop) (map_visit m) ->
    m_keeps (mcall rop) (map_visit right) ->
    map_mm rdef rd both lop rop m right = Ret (m', r) -> built m'
| built_tt K V (KK : Key K) R (rdef : R) rd st both lop rop (m right : trie K V) m' r o :
    built m -> built right ->
    map_tt rdef rd st both lop rop m right = Ret (m', r, o) -> built m'.

End Built.
