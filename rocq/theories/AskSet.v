(** The set operations (src/set.rs) and the transfute operations of maps (src/map.rs)
    when no code of the client is a function: closures, [reduce_op], the default,
    hashes, [==] and the clones of keys are all calls that may answer anything.

    A wrapper calls the operation of the map underneath with closures of its own.  So
    its code here is that of the map (AskT.v, AskJ.v, AskTw.v), where each call is made as
    the wrapper makes it ([handle]).  A set is a map to [()]: a clone of [()] is not the
    client's code and is no call, and the questions of the client show the keys with [tt]. *)
From Coq Require Import NArith List Bool.
From Verif Require Import Base Words Flag Bia Node Api Trans Transform Joint JointT Sets Eff EffT EffJ EffApi EffSet Ask AskT AskJ AskTw.
Import ListNotations.

(** Code with its calls replaced by other code. *)
Fixpoint handle {Q Q' : Type} {A : Q -> Type} {A' : Q' -> Type} (H : forall q, prog A (A' q)) {X} (p : prog A' X) : prog A X :=
  match p with
  | PRet x => PRet x
  | PPanic => PPanic
  | PDiverge => PDiverge
  | PAsk q k => let+ a := H q in handle H (k a)
  end.

Section Query.
Context {E : Env} {K L : Type}.

(** A set inserts and clones [()] for a value, which is none of the client's code. *)
Definition sh_query (c : call K unit L unit) : prog (@reply E K unit L unit) (@reply E K unit L unit c) :=
  match c return prog (@reply E K unit L unit) (@reply E K unit L unit c) with
  | CEq k q => ask (CEq k q)
  | CHashQ q => ask (CHashQ q)
  | CHash k => ask (CHash k)
  | CKey k => ask (CKey k)
  | CValue v => PRet v
  | CInto q => ask (CInto q)
  | CIntoV w => PRet w
  end.

(** set.rs:86-88. *)
Definition aset_find (s : tset K) (q : L) : prog (@reply E K unit L unit) (result K trie_error) :=
  let+ r := handle sh_query (ask_find s q) in
  PRet (match r with Ok (k, _) => Ok k | Err e => Err e end).

(** set.rs:92-99. *)
Definition aset_insert (s : tset K) (q : L) (replace : bool) : prog (@reply E K unit L unit) (result (tset K * K * option K) K) :=
  let+ r := handle sh_query (ask_insert s q tt replace) in
  PRet (match r with Ok (s', (k, _), prev) => Ok (s', k, option_map fst prev) | Err (k, _) => Err k end).

(** set.rs:102-104. *)
Definition aset_remove (s : tset K) (q : L) : prog (@reply E K unit L unit) (result (tset K * K) trie_error) :=
  let+ r := handle sh_query (ask_remove s q) in
  PRet (match r with Ok (s', (k, _)) => Ok (s', k) | Err e => Err e end).

End Query.

Section One.
Context {E : Env} {K R : Type}.

(** set.rs:121-124. *)
Definition sh_transform (q : tcalls K unit R) : prog (treply K unit (sres R) R) (treply K unit (vres unit R) R q) :=
  let ask q := PAsk (A := treply K unit (sres R) R) q PRet in
  match q return prog (treply K unit (sres R) R) (treply K unit (vres unit R) R q) with
  | TOp e => es_transform (fun k => ask (TOp (k, tt))) e
  | TReduce a b => ask (TReduce a b)
  | TDefault => ask TDefault
  | TKey k => ask (TKey k)
  | TValue v => PRet v
  end.
(** set.rs:112-129. *)
Definition aset_transform (st : strategy) (w : tway R) (s : tset K) : prog (treply K unit (sres R) R) (tset K * R * origin) :=
  handle sh_transform (ask_transform st w s).

(** set.rs:144-147. *)
Definition sh_transmute {S} (q : tcalls K unit R) : prog (treply K unit (skres S R) R) (treply K unit (kres S unit R) R q) :=
  let ask q := PAsk (A := treply K unit (skres S R) R) q PRet in
  match q return prog (treply K unit (skres S R) R) (treply K unit (kres S unit R) R q) with
  | TOp e => es_transmute (fun k => ask (TOp (k, tt))) e
  | TReduce a b => ask (TReduce a b)
  | TDefault => ask TDefault
  | TKey k => ask (TKey k)
  | TValue v => PRet v
  end.
(** set.rs:132-151. *)
Definition aset_transmute {S} (w : mway R) (s : tset K) : prog (treply K unit (skres S R) R) (tset S * R) :=
  handle sh_transmute (ask_transmute w s).

(** set.rs:165-181. *)
Definition sh_tt (q : jcalls K unit K unit K unit R)
  : prog (jreply K unit K unit K unit (sbres R) (sres R) (sres R) R) (jreply K unit K unit K unit (bres unit R) (vres unit R) (vres unit R) R q) :=
  let ask q := PAsk (A := jreply K unit K unit K unit (sbres R) (sres R) (sres R) R) q PRet in
  match q return prog (jreply K unit K unit K unit (sbres R) (sres R) (sres R) R) (jreply K unit K unit K unit (bres unit R) (vres unit R) (vres unit R) R q) with
  | JBoth x y => es_joint (fun k l => ask (JBoth (k, tt) (l, tt))) x y
  | JLeft x => es_transform (fun k => ask (JLeft (k, tt))) x
  | JRight y => es_transform (fun k => ask (JRight (k, tt))) y
  | JReduce a b => ask (JReduce a b)
  | JDefault => ask JDefault
  | JHash k => ask (JHash k)
  | JHash' k => ask (JHash' k)
  | JEq k l => ask (JEq k l)
  | JEq' l k => ask (JEq' l k)
  | JKey k => ask (JKey k)
  | JValue v => PRet v
  end.
(** set.rs:154-183. *)
Definition aset_tt (st : strategy) (wb : jway R) (wl wr : tway R) (s right : tset K)
  : prog (jreply K unit K unit K unit (sbres R) (sres R) (sres R) R) (tset K * R * origin) :=
  handle sh_tt (ask_tt st wb wl wr s right).

End One.

Section Two.
Context {E : Env} {K L R : Type}.

(** set.rs:202-214; [wb] says whether the client's operation for two keys is a closure or
    a constant, the wrapper's is always a closure. *)
Definition sh_tm (wb : tway R) (q : jcalls K unit L unit K unit R)
  : prog (jreply K unit L unit K unit (sres R) (sres R) (skres K R) R) (jreply K unit L unit K unit (vres unit R) (vres unit R) (kres K unit R) R q) :=
  let ask q := PAsk (A := jreply K unit L unit K unit (sres R) (sres R) (skres K R) R) q PRet in
  match q return prog (jreply K unit L unit K unit (sres R) (sres R) (skres K R) R) (jreply K unit L unit K unit (vres unit R) (vres unit R) (kres K unit R) R q) with
  | JBoth x y => let+ o := es_call wb (fun p => ask (JBoth (fst p, tt) (snd p, tt))) (fst x, fst y) in PRet (vres_of o)
  | JLeft x => es_transform (fun k => ask (JLeft (k, tt))) x
  | JRight y => es_transmute (fun k => ask (JRight (k, tt))) y
  | JReduce a b => ask (JReduce a b)
  | JDefault => ask JDefault
  | JHash k => ask (JHash k)
  | JHash' k => ask (JHash' k)
  | JEq k l => ask (JEq k l)
  | JEq' l k => ask (JEq' l k)
  | JKey k => ask (JKey k)
  | JValue v => PRet v
  end.
(** set.rs:186-216. *)
Definition aset_tm (st : strategy) (wb wl : tway R) (wr : mway R) (s : tset K) (right : tset L)
  : prog (jreply K unit L unit K unit (sres R) (sres R) (skres K R) R) (tset K * R * origin) :=
  handle (sh_tm wb) (ask_tm st TwClosure wl wr s right).

(** set.rs:235-247. *)
Definition sh_mt (wb : tway R) (q : jcalls K unit L unit L unit R)
  : prog (jreply K unit L unit L unit (sres R) (skres L R) (sres R) R) (jreply K unit L unit L unit (vres unit R) (kres L unit R) (vres unit R) R q) :=
  let ask q := PAsk (A := jreply K unit L unit L unit (sres R) (skres L R) (sres R) R) q PRet in
  match q return prog (jreply K unit L unit L unit (sres R) (skres L R) (sres R) R) (jreply K unit L unit L unit (vres unit R) (kres L unit R) (vres unit R) R q) with
  | JBoth x y => let+ o := es_call wb (fun p => ask (JBoth (fst p, tt) (snd p, tt))) (fst x, fst y) in PRet (vres_of o)
  | JLeft x => es_transmute (fun k => ask (JLeft (k, tt))) x
  | JRight y => es_transform (fun k => ask (JRight (k, tt))) y
  | JReduce a b => ask (JReduce a b)
  | JDefault => ask JDefault
  | JHash k => ask (JHash k)
  | JHash' k => ask (JHash' k)
  | JEq k l => ask (JEq k l)
  | JEq' l k => ask (JEq' l k)
  | JKey k => ask (JKey k)
  | JValue v => PRet v
  end.
(** set.rs:219-249. *)
Definition aset_mt (st : strategy) (wb : tway R) (wl : mway R) (wr : tway R) (s : tset K) (right : tset L)
  : prog (jreply K unit L unit L unit (sres R) (skres L R) (sres R) R) (tset L * R * origin) :=
  handle (sh_mt wb) (ask_mt st TwClosure wl wr s right).

(** set.rs:272-290. *)
Definition sh_mm {S} (wb : mway R) (q : jcalls K unit L unit Empty_set Empty_set R)
  : prog (jreply K unit L unit Empty_set Empty_set (skres S R) (skres S R) (skres S R) R)
         (jreply K unit L unit Empty_set Empty_set (kres S unit R) (kres S unit R) (kres S unit R) R q) :=
  let ask q := PAsk (A := jreply K unit L unit Empty_set Empty_set (skres S R) (skres S R) (skres S R) R) q PRet in
  match q return prog (jreply K unit L unit Empty_set Empty_set (skres S R) (skres S R) (skres S R) R)
                      (jreply K unit L unit Empty_set Empty_set (kres S unit R) (kres S unit R) (kres S unit R) R q) with
  | JBoth x y => let+ o := es_mcall wb (fun p => ask (JBoth (fst p, tt) (snd p, tt))) (fst x, fst y) in PRet (kres_of o)
  | JLeft x => es_transmute (fun k => ask (JLeft (k, tt))) x
  | JRight y => es_transmute (fun k => ask (JRight (k, tt))) y
  | JReduce a b => ask (JReduce a b)
  | JDefault => ask JDefault
  | JHash k => ask (JHash k)
  | JHash' k => ask (JHash' k)
  | JEq k l => ask (JEq k l)
  | JEq' l k => ask (JEq' l k)
  | JKey k => match k with end
  | JValue v => match v with end
  end.
(** set.rs:252-292. *)
Definition aset_mm {S} (wb wl wr : mway R) (s : tset K) (right : tset L)
  : prog (jreply K unit L unit Empty_set Empty_set (skres S R) (skres S R) (skres S R) R) (tset S * R) :=
  handle (sh_mm wb) (ask_mm MwClosure wl wr s right).

End Two.

Section Transfute.
Context {E : Env} {K V W R : Type}.

(** map.rs:172-175: the key of a new value is a clone of the old one. *)
Definition mh_tf (q : jcalls K V K W K V R)
  : prog (jreply K V K W K V (vres V R) (vres V R) (skres V R) R) (jreply K V K W K V (vres V R) (vres V R) (kres K V R) R q) :=
  let ask q := PAsk (A := jreply K V K W K V (vres V R) (vres V R) (skres V R) R) q PRet in
  match q return prog (jreply K V K W K V (vres V R) (vres V R) (skres V R) R) (jreply K V K W K V (vres V R) (vres V R) (kres K V R) R q) with
  | JBoth x y => ask (JBoth x y)
  | JLeft x => ask (JLeft x)
  | JRight y =>
      let+ o := ask (JRight y) in
      match o with
      | SKTransmuted v r => let+ k := ask (JKey (fst y)) in PRet (KTransmuted k v r)
      | SKDropped r => PRet (KDropped r)
      end
  | JReduce a b => ask (JReduce a b)
  | JDefault => ask JDefault
  | JHash k => ask (JHash k)
  | JHash' k => ask (JHash' k)
  | JEq k l => ask (JEq k l)
  | JEq' l k => ask (JEq' l k)
  | JKey k => ask (JKey k)
  | JValue v => ask (JValue v)
  end.
(** map.rs:159-179, [transform_with_transfuted]. *)
Definition ask_tf (st : strategy) (wb wl : tway R) (wr : mway R) (m : trie K V) (right : trie K W)
  : prog (jreply K V K W K V (vres V R) (vres V R) (skres V R) R) (trie K V * R * origin) :=
  handle mh_tf (ask_tm st wb wl wr m right).

(** map.rs:215-218. *)
Definition mh_ft (q : jcalls K V K W K W R)
  : prog (jreply K V K W K W (vres W R) (skres W R) (vres W R) R) (jreply K V K W K W (vres W R) (kres K W R) (vres W R) R q) :=
  let ask q := PAsk (A := jreply K V K W K W (vres W R) (skres W R) (vres W R) R) q PRet in
  match q return prog (jreply K V K W K W (vres W R) (skres W R) (vres W R) R) (jreply K V K W K W (vres W R) (kres K W R) (vres W R) R q) with
  | JBoth x y => ask (JBoth x y)
  | JLeft x =>
      let+ o := ask (JLeft x) in
      match o with
      | SKTransmuted v r => let+ k := ask (JKey (fst x)) in PRet (KTransmuted k v r)
      | SKDropped r => PRet (KDropped r)
      end
  | JRight y => ask (JRight y)
  | JReduce a b => ask (JReduce a b)
  | JDefault => ask JDefault
  | JHash k => ask (JHash k)
  | JHash' k => ask (JHash' k)
  | JEq k l => ask (JEq k l)
  | JEq' l k => ask (JEq' l k)
  | JKey k => ask (JKey k)
  | JValue v => ask (JValue v)
  end.
(** map.rs:202-222, [transfute_with_transformed]. *)
Definition ask_ft (st : strategy) (wb : tway R) (wl : mway R) (wr : tway R) (m : trie K V) (right : trie K W)
  : prog (jreply K V K W K W (vres W R) (skres W R) (vres W R) R) (trie K W * R * origin) :=
  handle mh_ft (ask_mt st wb wl wr m right).

End Transfute.
