(** transform and transmute on one map (src/node/snode.rs, lnode.rs, cnode.rs,
    mnode.rs, src/hash_trie.rs, src/map.rs). *)
From Coq Require Import NArith List Bool.
From Verif Require Import Base Words Flag Bia Node Api Trans.
Import ListNotations.
Open Scope N_scope.

Section Transform.
Context {E : Env} {K V R : Type}.
Context (rdef : R) (rd : R -> R -> R).

(** snode.rs:74-84, [transform]. *)
Definition s_transform (op : transform_op (K * V) V R) (s : snode K V) : tres K V R :=
  match tcall op (s_key s, s_value s) with
  | VUnchanged r => TU r
  | VTransformed v r => TN (NRS (SN (s_key s) v) r)
  | VDropped r => TN (NRZ r)
  end.

(** lnode.rs:1164-1192, [transform_result].  A case the Rust type of [next]
    does not have ([NRC]) is [NRZ]; it never arises. *)
Definition l_transform_result (this : lnode K V) (result : vres V R) (next : tres K V R) : tres K V R :=
  match result with
  | VUnchanged lr =>
      match next with
      | TU rr => TU (rd lr rr)
      | TN (NRL n rr) => TN (NRL (l_new (l_key this) (l_value this) (NL n)) (rd lr rr))
      | TN (NRS s rr) => TN (NRL (l_new (l_key this) (l_value this) (NS s)) (rd lr rr))
      | TN (NRZ rr) => TN (NRS (SN (l_key this) (l_value this)) (rd lr rr))
      | TN (NRC _ rr) => TN (NRZ (rd lr rr))
      end
  | VTransformed lv lr =>
      match next with
      | TU rr => TN (NRL (l_new (l_key this) lv (l_next this)) (rd lr rr))
      | TN (NRL n rr) => TN (NRL (l_new (l_key this) lv (NL n)) (rd lr rr))
      | TN (NRS s rr) => TN (NRL (l_new (l_key this) lv (NS s)) (rd lr rr))
      | TN (NRZ rr) => TN (NRS (SN (l_key this) lv) (rd lr rr))
      | TN (NRC _ rr) => TN (NRZ (rd lr rr))
      end
  | VDropped lr =>
      match next with
      | TU rr =>
          match l_next this with
          | NL n => TN (NRL n (rd lr rr))
          | NS s => TN (NRS s (rd lr rr))
          end
      | TN (NRL n rr) => TN (NRL n (rd lr rr))
      | TN (NRS s rr) => TN (NRS s (rd lr rr))
      | TN (NRZ rr) => TN (NRZ (rd lr rr))
      | TN (NRC _ rr) => TN (NRZ (rd lr rr))
      end
  end.

(** lnode.rs:151-176, [transform] and [transform_impl].  The recursive call
    through [transform] sees the same Generic op again. *)
Fixpoint l_transform (op : transform_op (K * V) V R) (this : lnode K V) : tres K V R :=
  match op with
  | TGeneric _ =>
      let next :=
        match this with
        | LNL _ _ n _ => l_transform op n
        | LNS _ _ s _ => s_transform op s
        end in
      l_transform_result this (tcall op (l_key this, l_value this)) next
  | TUnchanged r => TU r
  | TRemoved r => TN (NRZ r)
  end.

(** cnode.rs:185-219, the loop body of [transform_impl]; [self] holds each
    child with the result of transforming it. *)
Definition c_transform_step (self : bia (mnode K V * outcome (tres K V R))) (a : acc K V R) (index : N)
  : outcome (acc K V R) :=
  let* o := bat_bit_index fw self index in
  match o with
  | Ok (node, res) =>
      let* t := res in
      match t with
      | TU r => push rd a index node (m_size node) r
      | TN n => let* a' := push_new rd a index n in Ret (set_ul a')
      end
  | Err _ => Ret a
  end.

(** mnode.rs:62-74; the branch case is cnode.rs:117-222, [transform] and
    [transform_impl]. *)
Fixpoint m_transform (st : strategy) (op : transform_op (K * V) V R) (n : mnode K V) {struct n} : outcome (tres K V R) :=
  match n with
  | MC (BIA bits values extra) =>
      match op with
      | TGeneric _ =>
          let* a := run_loop rdef rd st
                      (c_transform_step (BIA bits (map (fun c => (c, m_transform st op c)) values) extra)) in
          if a_ul a then Ret (TU (a_red a))
          else let* n := finish a in Ret (TN n)
      | TUnchanged r => Ret (TU r)
      | TRemoved r => Ret (TN (NRZ r))
      end
  | ML l => Ret (l_transform op l)
  | MS s => Ret (s_transform op s)
  end.

End Transform.

Section Transmute.
Context {E : Env} {K V S X R : Type}.
Context (rdef : R) (rd : R -> R -> R).

(** snode.rs:86-94, [transmute], and the conversion in results.rs:389. *)
Definition s_transmute (op : transmute_op (K * V) S X R) (s : snode K V) : nres S X R :=
  match mcall op (s_key s, s_value s) with
  | KTransmuted k v r => NRS (SN k v) r
  | KDropped r => NRZ r
  end.

(** lnode.rs:1194-1211, [transmute_result]; [NRC] never arises. *)
Definition l_transmute_result (result : kres S X R) (next : nres S X R) : nres S X R :=
  match result with
  | KTransmuted lk lv lr =>
      match next with
      | NRL n rr => NRL (l_new lk lv (NL n)) (rd lr rr)
      | NRS s rr => NRL (l_new lk lv (NS s)) (rd lr rr)
      | NRZ rr => NRS (SN lk lv) (rd lr rr)
      | NRC _ rr => NRZ (rd lr rr)
      end
  | KDropped lr =>
      match next with
      | NRL n rr => NRL n (rd lr rr)
      | NRS s rr => NRS s (rd lr rr)
      | NRZ rr => NRZ (rd lr rr)
      | NRC _ rr => NRZ (rd lr rr)
      end
  end.

(** lnode.rs:178-206, [transmute] and [transmute_impl]. *)
Fixpoint l_transmute (op : transmute_op (K * V) S X R) (this : lnode K V) : nres S X R :=
  match op with
  | MGeneric _ =>
      let next :=
        match this with
        | LNL _ _ n _ => l_transmute op n
        | LNS _ _ s _ => s_transmute op s
        end in
      l_transmute_result (mcall op (l_key this, l_value this)) next
  | MRemoved r => NRZ r
  end.

(** cnode.rs:243-266, the loop body. *)
Definition c_transmute_step (self : bia (outcome (nres S X R))) (a : acc S X R) (index : N) : outcome (acc S X R) :=
  let* o := bat_bit_index fw self index in
  match o with
  | Ok res => let* n := res in push_new rd a index n
  | Err _ => Ret a
  end.

(** mnode.rs:76-91; the branch case is cnode.rs:224-282. *)
Fixpoint m_transmute (op : transmute_op (K * V) S X R) (n : mnode K V) {struct n} : outcome (nres S X R) :=
  match n with
  | MC (BIA bits values extra) =>
      match op with
      | MGeneric _ =>
          let* a := loop (c_transmute_step (BIA bits (map (m_transmute op) values) extra))
                      (range 0 (max_ones fw)) (acc0 rdef) in
          if lenN (a_values a) =? count_ones (a_bits a) then finish a else Panic   (* assert_eq!, 268 *)
      | MRemoved r => Ret (NRZ r)
      end
  | ML l => Ret (l_transmute op l)
  | MS s => Ret (s_transmute op s)
  end.

End Transmute.

(** * The public operations *)

(** Where the root of a returned map comes from: a clone of the Arc of the
    receiver, a clone of the Arc of the right argument, or a node not known to
    be the root of either.  Needed for == (hash_trie.rs:213-217, mnode.rs:365-388),
    which compares root pointers. *)
Inductive origin : Set := Self | Right | Other.

(** hash_trie.rs:65-80, the nodes of a new root. *)
Definition nres_trie {K V R} (n : nres K V R) : trie K V * R :=
  match n with
  | NRC c r => (MC c, r)
  | NRL l r => (ML l, r)
  | NRS s r => (MS s, r)
  | NRZ r => (map_new, r)
  end.

Section Api.
Context {E : Env} {K V R : Type}.
Context (rdef : R) (rd : R -> R -> R).

(** hash_trie.rs:65-80, map.rs:115-125. *)
Definition map_transform (st : strategy) (op : transform_op (K * V) V R) (m : trie K V) : outcome (trie K V * R * origin) :=
  let* t := m_transform rdef rd st op m in
  match t with
  | TU r => Ret (m, r, Self)
  | TN n => Ret (nres_trie n, Other)
  end.

(** hash_trie.rs:82-99, map.rs:128-141. *)
Definition map_transmute {S X} (op : transmute_op (K * V) S X R) (m : trie K V) : outcome (trie S X * R) :=
  let* n := m_transmute rdef rd op m in
  Ret (nres_trie n).

End Api.
