(** Keys and values whose own code is not a function.

    The crate calls code of its clients in [find], [insert] and [remove] too:
    [PartialEq] and [Hash] of keys, [Clone] of keys and values, and [Into].
    Node.v takes them to be functions that keep the contracts.  Here a call is
    an event (Eff.v): the program asks, and goes on with whatever it is
    answered.  [Drop] is not a call here.  Cloning an [Arc] calls no client. *)
From Coq Require Import NArith List Bool.
From Verif Require Import Base Words Flag Bia Node Api Eff.
Import ListNotations.
Open Scope N_scope.

(** The calls: [K: PartialEq<L>] (traits.rs:235, lnode.rs:76, snode.rs:32),
    [M::default().hash] of the given and of a stored key (traits.rs:249-262),
    [Clone] of keys and of values, [L: Into<K>], [W: Into<V>]. *)
Inductive call (K V L W : Type) : Type :=
| CEq (k : K) (q : L)
| CHashQ (q : L)
| CHash (k : K)
| CKey (k : K)
| CValue (v : V)
| CInto (q : L)
| CIntoV (w : W).
Arguments CEq {K V L W} k q.
Arguments CHashQ {K V L W} q.
Arguments CHash {K V L W} k.
Arguments CKey {K V L W} k.
Arguments CValue {K V L W} v.
Arguments CInto {K V L W} q.
Arguments CIntoV {K V L W} w.

(** A hash is a word of the hash width; a hasher whose value does not fit panics
    (traits.rs:256), which is one of the ways a call may end. *)
Definition word {E : Env} : Type := {h : N | h < 2 ^ max_ones hw}.

Section Ask.
Context {E : Env} {K V L W : Type}.

Definition reply (c : call K V L W) : Type :=
  match c with
  | CEq _ _ => bool
  | CHashQ _ | CHash _ => word
  | CKey _ | CInto _ => K
  | CValue _ | CIntoV _ => V
  end.
Notation asks := (prog reply).

Definition ask (c : call K V L W) : asks (reply c) := PAsk c PRet.

(** * find *)

(** snode.rs:31-38. *)
Definition as_find (s : snode K V) (q : L) : asks (option (K * V)) :=
  let+ b := ask (CEq (s_key s) q) in
  if (b : bool) then PRet (Some (s_key s, s_value s)) else PRet None.

(** lnode.rs:75-85. *)
Fixpoint al_find (l : lnode K V) (q : L) : asks (option (K * V)) :=
  let+ b := ask (CEq (l_key l) q) in
  if (b : bool) then PRet (Some (l_key l, l_value l))
  else match l with
       | LNL _ _ n _ => al_find n q
       | LNS _ _ s _ => as_find s q
       end.

(** mnode.rs:22-31, cnode.rs:24-33. *)
Fixpoint am_find (n : mnode K V) (q : L) (flag : option Flag) {struct n} : asks (option (K * V)) :=
  match n with
  | MC (BIA bits values extra) =>
      let+ f := lift (unwrap flag) in
      match bat (BIA bits (map (fun c => (c, am_find c)) values) extra) (fl_flag f) with
      | Ok (MC _, rec) => let+ nx := lift (flag_next f) in rec q nx
      | Ok (ML l, _) => al_find l q
      | Ok (MS s, _) => as_find s q
      | Err _ => PRet None
      end
  | ML l => al_find l q
  | MS s => as_find s q
  end.

(** * remove *)

(** snode.rs:65-72. *)
Definition as_remove (s : snode K V) (q : L) : asks (remove_result K V) :=
  let+ b := ask (CEq (s_key s) q) in
  if (b : bool) then PRet (RZ (s_key s) (s_value s)) else PRet RNotFound.

(** lnode.rs:129-149.  The key is cloned before the value. *)
Fixpoint al_remove_from (l : lnode K V) (q : L) : asks (lremove_result K V) :=
  let+ b := ask (CEq (l_key l) q) in
  if (b : bool) then
    PRet (match l with
          | LNL k v n _ => LRL n k v
          | LNS k v s _ => LRS s k v
          end)
  else match l with
       | LNL k v n _ =>
           let+ r := al_remove_from n q in
           match r with
           | LRNotFound => PRet LRNotFound
           | LRL n' k' v' =>
               let+ ck := ask (CKey k) in
               let+ cv := ask (CValue v) in
               PRet (LRL (l_new ck cv (NL n')) k' v')
           | LRS s' k' v' =>
               let+ ck := ask (CKey k) in
               let+ cv := ask (CValue v) in
               PRet (LRL (l_new ck cv (NS s')) k' v')
           end
       | LNS k v s _ =>
           let+ r := as_remove s q in
           match r with
           | RZ k' v' =>
               let+ ck := ask (CKey k) in
               let+ cv := ask (CValue v) in
               PRet (LRS (SN ck cv) k' v')
           | _ => PRet LRNotFound
           end
       end.

(** lnode.rs:121-127. *)
Definition al_remove (l : lnode K V) (q : L) : asks (remove_result K V) :=
  let+ r := al_remove_from l q in
  PRet (match r with
        | LRNotFound => RNotFound
        | LRL n k v => RL n k v
        | LRS s k v => RS s k v
        end).

(** mnode.rs:46-52, cnode.rs:35-62. *)
Fixpoint am_remove (n : mnode K V) (q : L) (flag : option Flag) {struct n} : asks (remove_result K V) :=
  match n with
  | MC (BIA bits values extra) =>
      let self := BIA bits values extra in
      let+ f := lift (unwrap flag) in
      match bat (BIA bits (map (fun c => (c, am_remove c)) values) extra) (fl_flag f) with
      | Ok (_, rec) =>
          let+ nx := lift (flag_next f) in
          let+ r := rec q nx in
          match r with
          | RNotFound => PRet RNotFound
          | RC c k v =>
              if bextra c =? 0 then PPanic
              else
                let+ size := lift (usub extra 1) in
                let+ b := lift (unwrap_ok (bupdated self (fl_flag f) (MC c) size)) in
                PRet (RC b k v)
          | RL l k v =>
              let+ size := lift (usub extra 1) in
              let+ b := lift (unwrap_ok (bupdated self (fl_flag f) (ML l) size)) in
              PRet (RC b k v)
          | RS s k v =>
              let+ size := lift (usub extra 1) in
              let+ b := lift (unwrap_ok (bupdated self (fl_flag f) (MS s) size)) in
              PRet (RC b k v)
          | RZ k v =>
              if extra =? 1 then PRet (RZ k v)
              else
                let+ size := lift (usub extra 1) in
                let+ b := lift (unwrap_ok (bremoved self (fl_flag f) size)) in
                PRet (RC b k v)
          end
      | Err _ => PRet RNotFound
      end
  | ML l => al_remove l q
  | MS s => as_remove s q
  end.

(** * insert *)

(** [key.into()], then [value.into()]: lnode.rs:103, :109, :1222, :1231,
    snode.rs:51, cnode.rs:108. *)
Definition into (q : L) (w : W) : asks (K * V) :=
  let+ k := ask (CInto q) in
  let+ v := ask (CIntoV w) in
  PRet (k, v).

(** lnode.rs:1213-1236. *)
Definition al_lift (this : lnext K V) (q : L) (w : W) (key_flag : Flag) : asks (insert_result K V) :=
  let+ h := ask (CHash (next_key this)) in
  let this_hash := proj1_sig (h : word) in
  if this_hash =? fl_hash key_flag then
    let+ (k, v) := into q w in
    let l := l_new k v this in
    PRet (IL l (l_key l) (l_value l) None)
  else
    let+ tf := lift (flag_new_at_depth this_hash (fl_depth key_flag)) in
    let+ tf := lift (unwrap tf) in
    let+ (k, v) := into q w in
    let s := SN k v in
    let+ c := lift (cnode_lift (next_mnode this) tf (MS s) key_flag) in
    PRet (IC c (s_key s) (s_value s) None).

(** snode.rs:42-63. *)
Definition as_insert (this : snode K V) (q : L) (w : W) (key_flag : option Flag) (replace : bool)
  : asks (insert_result K V) :=
  let+ b := ask (CEq (s_key this) q) in
  if (b : bool) then
    if replace then
      let+ (k, v) := into q w in
      let s := SN k v in
      PRet (IS s (s_key s) (s_value s) (Some (s_key this, s_value this)))
    else PRet (IFound (s_key this) (s_value this))
  else
    let+ f := lift (unwrap key_flag) in
    al_lift (NS this) q w f.

(** lnode.rs:89-119. *)
Definition al_insert (this : lnode K V) (q : L) (w : W) (key_flag : option Flag) (replace : bool)
  : asks (insert_result K V) :=
  let+ found := al_find this q in
  match found with
  | Some (fk, fv) =>
      if replace then
        let+ r := al_remove_from this q in
        match r with
        | LRL n rk rv =>
            let+ (k, v) := into q w in
            let l := l_new k v (NL n) in
            PRet (IL l (l_key l) (l_value l) (Some (rk, rv)))
        | LRS s rk rv =>
            let+ (k, v) := into q w in
            let l := l_new k v (NS s) in
            PRet (IL l (l_key l) (l_value l) (Some (rk, rv)))
        | LRNotFound => PPanic
        end
      else PRet (IFound fk fv)
  | None =>
      let+ f := lift (unwrap key_flag) in
      al_lift (NL this) q w f
  end.

(** mnode.rs:33-44, cnode.rs:77-115. *)
Fixpoint am_insert (n : mnode K V) (q : L) (w : W) (flag : option Flag) (replace : bool) {struct n}
  : asks (insert_result K V) :=
  match n with
  | MC (BIA bits values extra) =>
      let self := BIA bits values extra in
      let+ f := lift (unwrap flag) in
      match bat (BIA bits (map (fun c => (c, am_insert c)) values) extra) (fl_flag f) with
      | Ok (MC c, rec) =>
          let+ nx := lift (flag_next f) in
          let+ r := rec q w nx replace in
          match r with
          | IFound k' v' => PRet (IFound k' v')
          | IC c2 k' v' prev =>
              let+ size := lift (usub (extra + bextra c2) (bextra c)) in
              let+ b := lift (unwrap_ok (bupdated self (fl_flag f) (MC c2) size)) in
              PRet (IC b k' v' prev)
          | _ => PPanic
          end
      | Ok (ML l, _) =>
          let+ nx := lift (flag_next f) in
          let+ r := al_insert l q w nx replace in
          match r with
          | IFound k' v' => PRet (IFound k' v')
          | IC c k' v' prev =>
              let+ b := lift (unwrap_ok (bupdated self (fl_flag f) (MC c) (extra + 1))) in
              PRet (IC b k' v' prev)
          | IL l2 k' v' prev =>
              let+ size := lift (usub (extra + l_size l2) (l_size l)) in
              let+ b := lift (unwrap_ok (bupdated self (fl_flag f) (ML l2) size)) in
              PRet (IC b k' v' prev)
          | _ => PPanic
          end
      | Ok (MS s, _) =>
          let+ nx := lift (flag_next f) in
          let+ r := as_insert s q w nx replace in
          match r with
          | IFound k' v' => PRet (IFound k' v')
          | IC c k' v' prev =>
              let+ b := lift (unwrap_ok (bupdated self (fl_flag f) (MC c) (extra + 1))) in
              PRet (IC b k' v' prev)
          | IL l k' v' prev =>
              let+ b := lift (unwrap_ok (bupdated self (fl_flag f) (ML l) (extra + 1))) in
              PRet (IC b k' v' prev)
          | IS s' k' v' prev =>
              let+ b := lift (unwrap_ok (bupdated self (fl_flag f) (MS s') extra)) in
              PRet (IC b k' v' prev)
          end
      | Err _ =>
          let+ (k, v) := into q w in
          let s := SN k v in
          let+ b := lift (unwrap_ok (binserted self (fl_flag f) (MS s) (extra + 1))) in
          PRet (IC b (s_key s) (s_value s) None)
      end
  | ML l => al_insert l q w flag replace
  | MS s => as_insert s q w flag replace
  end.

(** * The public operations *)

(** hash_trie.rs:29-34, map.rs:88-90. *)
Definition ask_find (m : trie K V) (q : L) : asks (result (K * V) trie_error) :=
  let+ h := ask (CHashQ q) in
  let+ f := lift (flag_new (proj1_sig (h : word))) in
  let+ r := am_find m q (Some f) in
  PRet (match r with Some e => Ok e | None => Err NotFound end).

(** hash_trie.rs:36-49, map.rs:95-102. *)
Definition ask_insert (m : trie K V) (q : L) (w : W) (replace : bool)
  : asks (result (trie K V * (K * V) * option (K * V)) (K * V)) :=
  let+ h := ask (CHashQ q) in
  let+ f := lift (flag_new (proj1_sig (h : word))) in
  let+ r := am_insert m q w (Some f) replace in
  PRet (match r with
        | IFound k' v' => Err (k', v')
        | IC c k' v' prev => Ok (MC c, (k', v'), prev)
        | IL l k' v' prev => Ok (ML l, (k', v'), prev)
        | IS s k' v' prev => Ok (MS s, (k', v'), prev)
        end).

(** hash_trie.rs:51-59, map.rs:105-107. *)
Definition ask_remove (m : trie K V) (q : L) : asks (result (trie K V * (K * V)) trie_error) :=
  let+ h := ask (CHashQ q) in
  let+ f := lift (flag_new (proj1_sig (h : word))) in
  let+ r := am_remove m q (Some f) in
  PRet (match r with
        | RNotFound => Err NotFound
        | RC c k v => Ok (MC c, (k, v))
        | RL l k v => Ok (ML l, (k, v))
        | RS s k v => Ok (MS s, (k, v))
        | RZ k v => Ok (map_new, (k, v))
        end).

End Ask.
