(** transform and transmute when no code of the client is a function.

    Compare Transform.v, function by function.  EffT.v made the closure an
    event.  Here so are [reduce_op], [ReduceT::default] and [Clone] of keys and
    values.  Not events: [Clone] of the closures themselves, [Drop], and [Clone] of
    [ReduceT], called only on a constant the client passed instead of a closure
    (transformations.rs:166-167, :357). *)
From Coq Require Import NArith List Bool.
From Verif Require Import Base Words Flag Bia Node Api Trans Transform Eff EffApi.
Import ListNotations.
Open Scope N_scope.

(** * The loops, with any way of reducing *)
Section Loop.
Context {E : Env} {Q : Type} {A : Q -> Type} {K V R : Type}.
(** [ReduceT::default()] and [reduce_op(&a, &b)]. *)
Context (def : prog A R) (red : R -> R -> prog A R).

(** cnode.rs:189-192 and every other block like it: count, set the bit, push
    the node, reduce. *)
Definition apush (a : acc K V R) (index : N) (n : mnode K V) (size : N) (r : R) : prog A (acc K V R) :=
  let+ bit := lift (unwrap_ok (nth_bit fw index)) in
  let+ bits := lift (unwrap_ok (bit_insert (a_bits a) bit)) in
  let+ r' := red (a_red a) r in
  PRet (Acc (a_size a + size) bits (a_values a ++ [n]) (a_ul a) (a_ur a) r').

(** cnode.rs:194-218 and every other block like it: cases C, L, S, Removed. *)
Definition apush_new (a : acc K V R) (index : N) (n : nres K V R) : prog A (acc K V R) :=
  match n with
  | NRC c r => apush a index (MC c) (bextra c) r
  | NRL l r => apush a index (ML l) (l_size l) r
  | NRS s r => apush a index (MS s) 1 r
  | NRZ r => let+ r' := red (a_red a) r in PRet (Acc (a_size a) (a_bits a) (a_values a) (a_ul a) (a_ur a) r')
  end.

(** cnode.rs:179-185, [reduced = ReduceT::default()] and [for index in range]. *)
Definition aloop (step : acc K V R -> N -> prog A (acc K V R)) (l : list N) : prog A (acc K V R) :=
  let+ r := def in eloop step l (acc0 r).

(** cnode.rs:139-149, :434-452, the two halves of MiddleIndex, as in Eff.v; the
    bits are merged before the halves are reduced (149). *)
Definition ahalves (step : acc K V R -> N -> prog A (acc K V R)) : prog A (acc K V R) :=
  let half := max_ones fw / 2 in
  let+ l := aloop step (range 0 half) in
  let+ r := aloop step (range half (max_ones fw)) in
  let+ bits := lift (unwrap_ok (bit_merge (a_bits l) (a_bits r))) in
  let+ x := red (a_red l) (a_red r) in
  PRet (Acc (a_size l + a_size r) bits (a_values l ++ a_values r) (a_ul l && a_ul r) (a_ur l && a_ur r) x).

(** cnode.rs:136-153, :432-455. *)
Definition arun_loop (st : strategy) (step : acc K V R -> N -> prog A (acc K V R)) : prog A (acc K V R) :=
  match st with
  | MiddleIndex => ahalves step
  | Sequential => aloop step (range 0 (max_ones fw))
  end.

End Loop.

(** * transform *)
Section Transform.
Context {E : Env} {Q : Type} {A : Q -> Type} {K V R : Type}.
Context (def : prog A R) (red : R -> R -> prog A R).
(** [key.clone()] and [value.clone()]. *)
Context (ck : K -> prog A K) (cv : V -> prog A V).

(** snode.rs:74-84, [transform]. *)
Definition as_transform (op : etransform A (K * V) V R) (s : snode K V) : prog A (tres K V R) :=
  let+ o := etcall op (s_key s, s_value s) in
  match o with
  | VUnchanged r => PRet (TU r)
  | VTransformed v r => let+ k := ck (s_key s) in PRet (TN (NRS (SN k v) r))
  | VDropped r => PRet (TN (NRZ r))
  end.

(** lnode.rs:1164-1192, [transform_result].  The arguments are evaluated from
    left to right: the key is cloned, then the value, then the reductions are
    combined.  [NRC] never arises. *)
Definition al_transform_result (this : lnode K V) (result : vres V R) (next : tres K V R) : prog A (tres K V R) :=
  match result with
  | VUnchanged lr =>
      match next with
      | TU rr => let+ r := red lr rr in PRet (TU r)
      | TN (NRL n rr) =>
          let+ k := ck (l_key this) in
          let+ v := cv (l_value this) in
          let+ r := red lr rr in PRet (TN (NRL (l_new k v (NL n)) r))
      | TN (NRS s rr) =>
          let+ k := ck (l_key this) in
          let+ v := cv (l_value this) in
          let+ r := red lr rr in PRet (TN (NRL (l_new k v (NS s)) r))
      | TN (NRZ rr) =>
          let+ k := ck (l_key this) in
          let+ v := cv (l_value this) in
          let+ r := red lr rr in PRet (TN (NRS (SN k v) r))
      | TN (NRC _ rr) => let+ r := red lr rr in PRet (TN (NRZ r))
      end
  | VTransformed lv lr =>
      match next with
      | TU rr =>
          let+ k := ck (l_key this) in
          let+ r := red lr rr in PRet (TN (NRL (l_new k lv (l_next this)) r))
      | TN (NRL n rr) =>
          let+ k := ck (l_key this) in
          let+ r := red lr rr in PRet (TN (NRL (l_new k lv (NL n)) r))
      | TN (NRS s rr) =>
          let+ k := ck (l_key this) in
          let+ r := red lr rr in PRet (TN (NRL (l_new k lv (NS s)) r))
      | TN (NRZ rr) =>
          let+ k := ck (l_key this) in
          let+ r := red lr rr in PRet (TN (NRS (SN k lv) r))
      | TN (NRC _ rr) => let+ r := red lr rr in PRet (TN (NRZ r))
      end
  | VDropped lr =>
      match next with
      | TU rr =>
          let+ r := red lr rr in
          PRet match l_next this with
               | NL n => TN (NRL n r)
               | NS s => TN (NRS s r)
               end
      | TN (NRL n rr) => let+ r := red lr rr in PRet (TN (NRL n r))
      | TN (NRS s rr) => let+ r := red lr rr in PRet (TN (NRS s r))
      | TN (NRZ rr) => let+ r := red lr rr in PRet (TN (NRZ r))
      | TN (NRC _ rr) => let+ r := red lr rr in PRet (TN (NRZ r))
      end
  end.

(** lnode.rs:151-176, [transform] and [transform_impl]. *)
Fixpoint al_transform (op : etransform A (K * V) V R) (this : lnode K V) : prog A (tres K V R) :=
  match op with
  | EGeneric _ =>
      let+ next :=
        match this with
        | LNL _ _ n _ => al_transform op n
        | LNS _ _ s _ => as_transform op s
        end in
      let+ o := etcall op (l_key this, l_value this) in
      al_transform_result this o next
  | EUnchanged r => PRet (TU r)
  | ERemoved r => PRet (TN (NRZ r))
  end.

(** cnode.rs:185-219, the loop body of [transform_impl]. *)
Definition ac_transform_step (self : bia (mnode K V * prog A (tres K V R))) (a : acc K V R) (index : N)
  : prog A (acc K V R) :=
  let+ o := lift (bat_bit_index fw self index) in
  match o with
  | Ok (node, res) =>
      let+ t := res in
      match t with
      | TU r => apush red a index node (m_size node) r
      | TN n => let+ a' := apush_new red a index n in PRet (set_ul a')
      end
  | Err _ => PRet a
  end.

(** mnode.rs:62-74; the branch case is cnode.rs:117-222. *)
Fixpoint am_transform (st : strategy) (op : etransform A (K * V) V R) (n : mnode K V) {struct n}
  : prog A (tres K V R) :=
  match n with
  | MC (BIA bits values extra) =>
      match op with
      | EGeneric _ =>
          let+ a := arun_loop def red st
                      (ac_transform_step (BIA bits (map (fun c => (c, am_transform st op c)) values) extra)) in
          lift (if a_ul a then Ret (TU (a_red a))
                else let* n := finish a in Ret (TN n))
      | EUnchanged r => PRet (TU r)
      | ERemoved r => PRet (TN (NRZ r))
      end
  | ML l => al_transform op l
  | MS s => as_transform op s
  end.

End Transform.

(** * transmute *)
Section Transmute.
Context {E : Env} {Q : Type} {A : Q -> Type} {K V S X R : Type}.
Context (def : prog A R) (red : R -> R -> prog A R).

(** snode.rs:86-94, [transmute]. *)
Definition as_transmute (op : etransmute A (K * V) S X R) (s : snode K V) : prog A (nres S X R) :=
  let+ o := emcall op (s_key s, s_value s) in
  PRet
    match o with
    | KTransmuted k v r => NRS (SN k v) r
    | KDropped r => NRZ r
    end.

(** lnode.rs:1194-1211, [transmute_result]; [NRC] never arises. *)
Definition al_transmute_result (result : kres S X R) (next : nres S X R) : prog A (nres S X R) :=
  match result with
  | KTransmuted lk lv lr =>
      match next with
      | NRL n rr => let+ r := red lr rr in PRet (NRL (l_new lk lv (NL n)) r)
      | NRS s rr => let+ r := red lr rr in PRet (NRL (l_new lk lv (NS s)) r)
      | NRZ rr => let+ r := red lr rr in PRet (NRS (SN lk lv) r)
      | NRC _ rr => let+ r := red lr rr in PRet (NRZ r)
      end
  | KDropped lr =>
      match next with
      | NRL n rr => let+ r := red lr rr in PRet (NRL n r)
      | NRS s rr => let+ r := red lr rr in PRet (NRS s r)
      | NRZ rr => let+ r := red lr rr in PRet (NRZ r)
      | NRC _ rr => let+ r := red lr rr in PRet (NRZ r)
      end
  end.

(** lnode.rs:178-206, [transmute] and [transmute_impl]. *)
Fixpoint al_transmute (op : etransmute A (K * V) S X R) (this : lnode K V) : prog A (nres S X R) :=
  match op with
  | EMGeneric _ =>
      let+ next :=
        match this with
        | LNL _ _ n _ => al_transmute op n
        | LNS _ _ s _ => as_transmute op s
        end in
      let+ o := emcall op (l_key this, l_value this) in
      al_transmute_result o next
  | EMRemoved r => PRet (NRZ r)
  end.

(** cnode.rs:243-266, the loop body. *)
Definition ac_transmute_step (self : bia (prog A (nres S X R))) (a : acc S X R) (index : N) : prog A (acc S X R) :=
  let+ o := lift (bat_bit_index fw self index) in
  match o with
  | Ok res => let+ n := res in apush_new red a index n
  | Err _ => PRet a
  end.

(** mnode.rs:76-91; the branch case is cnode.rs:224-282. *)
Fixpoint am_transmute (op : etransmute A (K * V) S X R) (n : mnode K V) {struct n} : prog A (nres S X R) :=
  match n with
  | MC (BIA bits values extra) =>
      match op with
      | EMGeneric _ =>
          let+ a := aloop def (ac_transmute_step (BIA bits (map (am_transmute op) values) extra))
                      (range 0 (max_ones fw)) in
          lift (if lenN (a_values a) =? count_ones (a_bits a) then finish a else Panic)
      | EMRemoved r => PRet (NRZ r)
      end
  | ML l => al_transmute op l
  | MS s => as_transmute op s
  end.

End Transmute.

(** * The public operations *)

(** What the client's code is called with: the closure of the operation with an
    entry, [reduce_op], [ReduceT::default], [Clone] of keys and of values. *)
Inductive tcalls (K V R : Type) : Type :=
| TOp (e : K * V)
| TReduce (a b : R)
| TDefault
| TKey (k : K)
| TValue (v : V).
Arguments TOp {K V R} e.
Arguments TReduce {K V R} a b.
Arguments TDefault {K V R}.
Arguments TKey {K V R} k.
Arguments TValue {K V R} v.

(** [T] is what the closure answers. *)
Definition treply (K V T R : Type) (q : tcalls K V R) : Type :=
  match q with
  | TOp _ => T
  | TReduce _ _ | TDefault => R
  | TKey _ => K
  | TValue _ => V
  end.

Section Api.
Context {E : Env} {K V R : Type}.

(** hash_trie.rs:65-80, map.rs:115-125; [w] says whether the client passed a
    closure or a constant. *)
Definition ask_transform (st : strategy) (w : tway R) (m : trie K V)
  : prog (treply K V (vres V R) R) (trie K V * R * origin) :=
  let ask q := PAsk (A := treply K V (vres V R) R) q PRet in
  let+ t := am_transform (ask TDefault) (fun a b => ask (TReduce a b)) (fun k => ask (TKey k)) (fun v => ask (TValue v))
              st (tw_op w (fun e => ask (TOp e))) m in
  PRet
    match t with
    | TU r => (m, r, Self)
    | TN n => (nres_trie n, Other)
    end.

(** hash_trie.rs:82-99, map.rs:128-141. *)
Definition ask_transmute {S X} (w : mway R) (m : trie K V) : prog (treply K V (kres S X R) R) (trie S X * R) :=
  let ask q := PAsk (A := treply K V (kres S X R) R) q PRet in
  let+ n := am_transmute (ask TDefault) (fun a b => ask (TReduce a b)) (mw_op w (fun e => ask (TOp e))) m in
  PRet (nres_trie n).

End Api.
