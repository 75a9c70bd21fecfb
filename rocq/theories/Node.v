(** Trie nodes and the operations find, insert, remove, visit, size
    (src/node/snode.rs, lnode.rs, cnode.rs, mnode.rs). *)
From Coq Require Import NArith List Bool.
From Verif Require Import Base Words Flag Bia.
Import ListNotations.
Open Scope N_scope.

(** snode.rs:6-9, [struct SNode]. *)
Record snode (K V : Type) : Type := SN { s_key : K; s_value : V }.
Arguments SN {K V} s_key s_value.
Arguments s_key {K V} s.
Arguments s_value {K V} s.

(** lnode.rs:31-36, [struct LNode], with the two cases of its [next] field
    (lnode.rs:6-9, [LNodeNext]) folded into the constructors.  The last argument
    is the stored [size] field. *)
Inductive lnode (K V : Type) : Type :=
| LNL (key : K) (value : V) (next : lnode K V) (size : N)
| LNS (key : K) (value : V) (next : snode K V) (size : N).
Arguments LNL {K V} key value next size.
Arguments LNS {K V} key value next size.

(** lnode.rs:6-9, [enum LNodeNext]. *)
Inductive lnext (K V : Type) : Type :=
| NL (l : lnode K V)
| NS (s : snode K V).
Arguments NL {K V} l.
Arguments NS {K V} s.

(** mnode.rs:6-10, [enum MNode]; cnode.rs:8-11, [struct CNode] is its array. *)
Inductive mnode (K V : Type) : Type :=
| MC (c : bia (mnode K V))
| ML (l : lnode K V)
| MS (s : snode K V).
Arguments MC {K V} c.
Arguments ML {K V} l.
Arguments MS {K V} s.

Definition cnode (K V : Type) : Type := bia (mnode K V).

Section Types.
Context {K V : Type}.

(** lnode.rs:40-47, accessors. *)
Definition l_key (l : lnode K V) : K := match l with LNL k _ _ _ | LNS k _ _ _ => k end.
Definition l_value (l : lnode K V) : V := match l with LNL _ v _ _ | LNS _ v _ _ => v end.
Definition l_next (l : lnode K V) : lnext K V :=
  match l with LNL _ _ n _ => NL n | LNS _ _ s _ => NS s end.
(** lnode.rs:63-65, [LNode::size]. *)
Definition l_size (l : lnode K V) : N := match l with LNL _ _ _ z | LNS _ _ _ z => z end.

(** lnode.rs:49-60, [LNode::new]. *)
Definition l_new (k : K) (v : V) (next : lnext K V) : lnode K V :=
  match next with
  | NL l => LNL k v l (1 + l_size l)
  | NS s => LNS k v s (1 + 1)
  end.

(** lnode.rs:12-18, [LNodeNext::key]. *)
Definition next_key (n : lnext K V) : K :=
  match n with NL l => l_key l | NS s => s_key s end.

(** lnode.rs:21-28, [From<LNodeNext> for MNode]. *)
Definition next_mnode (n : lnext K V) : mnode K V :=
  match n with NL l => ML l | NS s => MS s end.

(** mnode.rs:14-20, [MNode::size]; cnode.rs:20-22, [CNode::size]. *)
Definition m_size (n : mnode K V) : N :=
  match n with MC c => bextra c | ML l => l_size l | MS _ => 1 end.

(** The calls made by [visit], in order.
    snode.rs:27-29. *)
Definition s_visit (s : snode K V) : list (K * V) := [(s_key s, s_value s)].
(** lnode.rs:67-73. *)
Fixpoint l_visit (l : lnode K V) : list (K * V) :=
  match l with
  | LNL k v n _ => (k, v) :: l_visit n
  | LNS k v s _ => (k, v) :: s_visit s
  end.
(** mnode.rs:54-60 and cnode.rs:64-72. *)
Fixpoint m_visit (n : mnode K V) : list (K * V) :=
  match n with
  | MC (BIA _ values _) => concat (map m_visit values)
  | ML l => l_visit l
  | MS s => s_visit s
  end.

End Types.

Section Ops.
Context {E : Env} {K V : Type} {KK : Key K}.

(** * find *)
Section Find.
Context {Q : Type} {KQ : Key Q}.

(** snode.rs:31-38. *)
Definition s_find (s : snode K V) (q : Q) : option (K * V) :=
  if keqb (s_key s) q then Some (s_key s, s_value s) else None.

(** lnode.rs:75-85. *)
Fixpoint l_find (l : lnode K V) (q : Q) : option (K * V) :=
  match l with
  | LNL k v n _ => if keqb k q then Some (k, v) else l_find n q
  | LNS k v s _ => if keqb k q then Some (k, v) else s_find s q
  end.

(** mnode.rs:22-31; the branch case is cnode.rs:24-33.  The recursion goes over
    the values of the array, paired with the result of looking in them. *)
Fixpoint m_find (n : mnode K V) (q : Q) (flag : option Flag) {struct n} : outcome (option (K * V)) :=
  match n with
  | MC (BIA bits values extra) =>
      let* f := unwrap flag in
      match bat (BIA bits (map (fun c => (c, m_find c)) values) extra) (fl_flag f) with
      | Ok (MC _, rec) => let* nx := flag_next f in rec q nx
      | Ok (ML l, _) => Ret (l_find l q)
      | Ok (MS s, _) => Ret (s_find s q)
      | Err _ => Ret None
      end
  | ML l => Ret (l_find l q)
  | MS s => Ret (s_find s q)
  end.

End Find.

(** * insert *)

(** results.rs:31-37, [InsertResult]; the pointers *const K, *const V are
    modelled by what they point to.  [CNodeInsertResult] (39-43) and
    [LNodeInsertResult] (54-59) are subsets of its cases; conversions between
    them (45-52, 61-69) keep the case. *)
Inductive insert_result : Type :=
| IFound (k : K) (v : V)
| IC (c : cnode K V) (k : K) (v : V) (prev : option (K * V))
| IL (l : lnode K V) (k : K) (v : V) (prev : option (K * V))
| IS (s : snode K V) (k : K) (v : V) (prev : option (K * V)).

(** results.rs, [LNodeRemoveResult]. *)
Inductive lremove_result : Type :=
| LRNotFound
| LRL (l : lnode K V) (k : K) (v : V)
| LRS (s : snode K V) (k : K) (v : V).

(** results.rs, [RemoveResult]; [SNodeRemoveResult] is the subset
    NotFound/RemovedZ. *)
Inductive remove_result : Type :=
| RNotFound
| RC (c : cnode K V) (k : K) (v : V)
| RL (l : lnode K V) (k : K) (v : V)
| RS (s : snode K V) (k : K) (v : V)
| RZ (k : K) (v : V).

(** cnode.rs:1615-1630, [lift_to_cnode_and_insert].  The recursion descends one
    hash slice per call and ends at the latest when [next] answers [None]; the
    fuel is the number of slices it allows. *)
Fixpoint c_lift (fuel : nat) (this : mnode K V) (this_flag : Flag) (right : mnode K V) (right_flag : Flag)
  : outcome (cnode K V) :=
  match fuel with
  | O => Diverge
  | S fuel' =>
      let size := m_size this + m_size right in
      if fl_flag this_flag =? fl_flag right_flag then
        let* tn := flag_next this_flag in
        let* tn := unwrap tn in
        let* rn := flag_next right_flag in
        let* rn := unwrap rn in
        let* c := c_lift fuel' this tn right rn in
        unwrap_ok (new_bia (fl_flag this_flag) [MC c] size)
      else
        let* flags := unwrap_ok (bit_insert (fl_flag this_flag) (fl_flag right_flag)) in
        let* i := unwrap_ok (bit_index flags (fl_flag this_flag)) in
        let values := if i =? 0 then [this; right] else [right; this] in
        unwrap_ok (new_bia flags values size)
  end.

(** Enough fuel for [c_lift]: flag.rs:23 allows at most this many depths. *)
Definition lift_fuel : nat := N.to_nat (8 * max_ones hw).

Definition cnode_lift := c_lift lift_fuel.

(** lnode.rs:1213-1236, [lift_to_cnode_and_insert].  [k] is [key.into()] and [v]
    is [value.into()]; the hash of the key is in its flag. *)
Definition l_lift (this : lnext K V) (k : K) (v : V) (key_flag : Flag) : outcome insert_result :=
  let this_hash := hashk (next_key this) in
  if this_hash =? fl_hash key_flag then
    let l := l_new k v this in
    Ret (IL l (l_key l) (l_value l) None)
  else
    let* tf := flag_new_at_depth this_hash (fl_depth key_flag) in
    let* tf := unwrap tf in
    let s := SN k v in
    let* c := cnode_lift (next_mnode this) tf (MS s) key_flag in
    Ret (IC c (s_key s) (s_value s) None).

Section Query.
Context {Q : Type} {KQ : Key Q}.

(** snode.rs:65-72, [remove]. *)
Definition s_remove (s : snode K V) (q : Q) : remove_result :=
  if keqb (s_key s) q then RZ (s_key s) (s_value s) else RNotFound.

(** lnode.rs:129-149, [remove_from_lnode]. *)
Fixpoint l_remove_from (l : lnode K V) (q : Q) : lremove_result :=
  match l with
  | LNL k v n _ =>
      if keqb k q then LRL n k v
      else match l_remove_from n q with
           | LRNotFound => LRNotFound
           | LRL n' k' v' => LRL (l_new k v (NL n')) k' v'
           | LRS s' k' v' => LRL (l_new k v (NS s')) k' v'
           end
  | LNS k v s _ =>
      if keqb k q then LRS s k v
      else if keqb (s_key s) q then LRS (SN k v) (s_key s) (s_value s)   (* snode::remove, 143-146 *)
      else LRNotFound
  end.

(** lnode.rs:121-127, [remove]. *)
Definition l_remove (l : lnode K V) (q : Q) : remove_result :=
  match l_remove_from l q with
  | LRNotFound => RNotFound
  | LRL n k v => RL n k v
  | LRS s k v => RS s k v
  end.

(** snode.rs:42-63, [insert]. *)
Definition s_insert (this : snode K V) (q : Q) (k : K) (v : V) (key_flag : option Flag) (replace : bool)
  : outcome insert_result :=
  if keqb (s_key this) q then
    if replace then
      let s := SN k v in
      Ret (IS s (s_key s) (s_value s) (Some (s_key this, s_value this)))
    else Ret (IFound (s_key this) (s_value this))
  else
    let* f := unwrap key_flag in
    l_lift (NS this) k v f.

(** lnode.rs:89-119, [insert]. *)
Definition l_insert (this : lnode K V) (q : Q) (k : K) (v : V) (key_flag : option Flag) (replace : bool)
  : outcome insert_result :=
  match l_find this q with
  | Some (fk, fv) =>
      if replace then
        match l_remove_from this q with
        | LRL n rk rv => let l := l_new k v (NL n) in Ret (IL l (l_key l) (l_value l) (Some (rk, rv)))
        | LRS s rk rv => let l := l_new k v (NS s) in Ret (IL l (l_key l) (l_value l) (Some (rk, rv)))
        | LRNotFound => Panic
        end
      else Ret (IFound fk fv)
  | None =>
      let* f := unwrap key_flag in
      l_lift (NL this) k v f
  end.

(** mnode.rs:33-44; the branch case is cnode.rs:77-115.  [q] is the key passed
    by the caller, [k] is [key.into()], [v] is [value.into()].  A case that the
    Rust result type of the callee does not have is [Panic]. *)
Fixpoint m_insert (n : mnode K V) (q : Q) (k : K) (v : V) (flag : option Flag) (replace : bool) {struct n}
  : outcome insert_result :=
  match n with
  | MC (BIA bits values extra) =>
      let self := BIA bits values extra in
      let* f := unwrap flag in
      match bat (BIA bits (map (fun c => (c, m_insert c)) values) extra) (fl_flag f) with
      | Ok (MC c, rec) =>
          let* nx := flag_next f in
          let* r := rec q k v nx replace in
          match r with
          | IFound k' v' => Ret (IFound k' v')
          | IC c2 k' v' prev =>
              let* size := usub (extra + bextra c2) (bextra c) in
              let* b := unwrap_ok (bupdated self (fl_flag f) (MC c2) size) in
              Ret (IC b k' v' prev)
          | _ => Panic
          end
      | Ok (ML l, _) =>
          let* nx := flag_next f in
          let* r := l_insert l q k v nx replace in
          match r with
          | IFound k' v' => Ret (IFound k' v')
          | IC c k' v' prev =>
              let* b := unwrap_ok (bupdated self (fl_flag f) (MC c) (extra + 1)) in
              Ret (IC b k' v' prev)
          | IL l2 k' v' prev =>
              let* size := usub (extra + l_size l2) (l_size l) in
              let* b := unwrap_ok (bupdated self (fl_flag f) (ML l2) size) in
              Ret (IC b k' v' prev)
          | _ => Panic
          end
      | Ok (MS s, _) =>
          let* nx := flag_next f in
          let* r := s_insert s q k v nx replace in
          match r with
          | IFound k' v' => Ret (IFound k' v')
          | IC c k' v' prev =>
              let* b := unwrap_ok (bupdated self (fl_flag f) (MC c) (extra + 1)) in
              Ret (IC b k' v' prev)
          | IL l k' v' prev =>
              let* b := unwrap_ok (bupdated self (fl_flag f) (ML l) (extra + 1)) in
              Ret (IC b k' v' prev)
          | IS s' k' v' prev =>
              let* b := unwrap_ok (bupdated self (fl_flag f) (MS s') extra) in
              Ret (IC b k' v' prev)
          end
      | Err _ =>
          let s := SN k v in
          let* b := unwrap_ok (binserted self (fl_flag f) (MS s) (extra + 1)) in
          Ret (IC b (s_key s) (s_value s) None)
      end
  | ML l => l_insert l q k v flag replace
  | MS s => s_insert s q k v flag replace
  end.

(** * remove *)

(** mnode.rs:46-52; the branch case is cnode.rs:35-62. *)
Fixpoint m_remove (n : mnode K V) (q : Q) (flag : option Flag) {struct n} : outcome remove_result :=
  match n with
  | MC (BIA bits values extra) =>
      let self := BIA bits values extra in
      let* f := unwrap flag in
      match bat (BIA bits (map (fun c => (c, m_remove c)) values) extra) (fl_flag f) with
      | Ok (_, rec) =>
          let* nx := flag_next f in
          let* r := rec q nx in
          match r with
          | RNotFound => Ret RNotFound
          | RC c k v =>
              if bextra c =? 0 then Panic
              else
                let* size := usub extra 1 in
                let* b := unwrap_ok (bupdated self (fl_flag f) (MC c) size) in
                Ret (RC b k v)
          | RL l k v =>
              let* size := usub extra 1 in
              let* b := unwrap_ok (bupdated self (fl_flag f) (ML l) size) in
              Ret (RC b k v)
          | RS s k v =>
              let* size := usub extra 1 in
              let* b := unwrap_ok (bupdated self (fl_flag f) (MS s) size) in
              Ret (RC b k v)
          | RZ k v =>
              if extra =? 1 then Ret (RZ k v)
              else
                let* size := usub extra 1 in
                let* b := unwrap_ok (bremoved self (fl_flag f) size) in
                Ret (RC b k v)
          end
      | Err _ => Ret RNotFound
      end
  | ML l => Ret (l_remove l q)
  | MS s => Ret (s_remove s q)
  end.

End Query.
End Ops.

Arguments insert_result : clear implicits.
Arguments remove_result : clear implicits.
Arguments lremove_result : clear implicits.
