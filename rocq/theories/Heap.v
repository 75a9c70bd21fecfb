(** The shared allocations behind a map: the reference-counted cells
    ([Arc]) of src/node/*.rs, and the operations find, size, visit, insert,
    remove, clone and [==] running on them.

    An address is the position of a cell in a heap that only grows.  Nothing in
    the crate writes to a cell after creating it: src/ has no [get_mut],
    [make_mut], [Cell], [RefCell], [Mutex], atomics or [static mut], and every
    field is private to src/node.  Dropping is not modelled here: a cell some handle
    still reaches is never freed by [Arc], so for the handles a client holds the
    two pictures agree, and comparing addresses of held handles is comparing
    positions.  Rc.v adds reference counts and drops, and C50 proves this. *)
From Coq Require Import NArith Arith List Bool.
From Verif Require Import Base Words Flag Bia Node Api.
Import ListNotations.
Open Scope N_scope.

(** A position in the heap: what an [Arc] points to. *)
Definition addr : Set := nat.

(** mnode.rs:6-10, [enum MNode]: which kind of node, and the [Arc] to it
    (cnode.rs:9-11: a [CNode] is an [Arc] to its array). *)
Inductive hnode : Set :=
| HC (a : addr)
| HL (a : addr)
| HS (a : addr).

(** lnode.rs:6-9, [enum LNodeNext]. *)
Inductive hnext : Set :=
| XL (a : addr)
| XS (a : addr).

(** The address in a handle. *)
Definition addr_of (n : hnode) : addr := match n with HC a | HL a | HS a => a end.

(** lnode.rs:21-28, [From<LNodeNext> for MNode]. *)
Definition hnext_node (x : hnext) : hnode := match x with XL a => HL a | XS a => HS a end.

(** What is stored in one allocation: a branch array (bit_indexed_array.rs:5-9),
    an [LNode] (lnode.rs:31-36) or an [SNode] (snode.rs:6-9). *)
Inductive cell (K V : Type) : Type :=
| CellC (c : bia hnode)
| CellL (k : K) (v : V) (next : hnext) (size : N)
| CellS (k : K) (v : V).
Arguments CellC {K V} c.
Arguments CellL {K V} k v next size.
Arguments CellS {K V} k v.

Definition heap (K V : Type) : Type := list (cell K V).

(** What the rest of the program allocates while a call runs: between two
    allocations of the call, other threads may add cells of their own.  [None]
    is a call that runs alone, which is what every theorem says unless it
    mentions a [Noise] (C54 does).  A heap only grows, so no two
    allocations of a call start from the same heap, and a function of the heap
    can stand for any way the threads interleave. *)
Class Noise (K V : Type) : Type := noise : option (heap K V -> list (cell K V)).
#[export] Instance quiet {K V : Type} : Noise K V | 100 := None.

Section Heap.
Context {E : Env} {K V : Type} {KK : Key K} {NZ : Noise K V}.
Notation heap := (heap K V).

(** The heap after the other threads had their turn. *)
Definition others (h : heap) : heap :=
  match noise with
  | None => h
  | Some f => h ++ f h
  end.

(** [Arc::new] (snode.rs:24, lnode.rs:54, cnode.rs:16). *)
Definition alloc (h : heap) (c : cell K V) : addr * heap :=
  let h := others h in (length h, h ++ [c]).

(** Dereferencing an [Arc].  Rust's types exclude the [Panic] case; C09 shows
    that it never arises here either. *)
Definition get_c (h : heap) (a : addr) : outcome (bia hnode) :=
  match nth_error h a with Some (CellC c) => Ret c | _ => Panic end.
Definition get_l (h : heap) (a : addr) : outcome ((K * V) * hnext * N) :=
  match nth_error h a with Some (CellL k v x z) => Ret ((k, v), x, z) | _ => Panic end.
Definition get_s (h : heap) (a : addr) : outcome (K * V) :=
  match nth_error h a with Some (CellS k v) => Ret (k, v) | _ => Panic end.

(** The entry a pair of references [(&K, &V)] or pointers [( *const K, *const V)]
    into a leaf cell shows; such a pair is modelled by the address of the cell. *)
Definition entry_at (h : heap) (a : addr) : option (K * V) :=
  match nth_error h a with
  | Some (CellL k v _ _) | Some (CellS k v) => Some (k, v)
  | _ => None
  end.

(** mnode.rs:14-20, cnode.rs:20-22, lnode.rs:63-65. *)
Definition h_size (h : heap) (n : hnode) : outcome N :=
  match n with
  | HC a => let* c := get_c h a in Ret (bextra c)
  | HL a => let* (_, z) := get_l h a in Ret z
  | HS _ => Ret 1
  end.

(** The recursions below follow [Arc]s, so they carry fuel; [Diverge] is running
    out of it.  The public operations start with more than the number of cells. *)

(** lnode.rs:67-73, snode.rs:27-29. *)
Fixpoint hl_visit (fuel : nat) (h : heap) (a : addr) : outcome (list (K * V)) :=
  match fuel with
  | O => Diverge
  | S fuel' =>
      let* (e, x, _) := get_l h a in
      let* r := match x with
                | XL b => hl_visit fuel' h b
                | XS b => let* e' := get_s h b in Ret [e']
                end in
      Ret (e :: r)
  end.

(** The loop of cnode.rs:65-71 over the children. *)
Fixpoint each {A} (f : hnode -> outcome (list A)) (cs : list hnode) : outcome (list A) :=
  match cs with
  | [] => Ret []
  | c :: cs' => let* l := f c in let* r := each f cs' in Ret (l ++ r)
  end.

(** mnode.rs:54-60, cnode.rs:64-72. *)
Fixpoint h_visit (fuel : nat) (h : heap) (n : hnode) : outcome (list (K * V)) :=
  match fuel with
  | O => Diverge
  | S fuel' =>
      match n with
      | HC a => let* c := get_c h a in each (h_visit fuel' h) (bvalues c)
      | HL a => hl_visit fuel h a
      | HS a => let* e := get_s h a in Ret [e]
      end
  end.

(** lnode.rs:49-60, [LNode::new]. *)
Definition hl_new (h : heap) (k : K) (v : V) (x : hnext) : outcome (addr * heap) :=
  let* z := match x with XL b => let* (_, z) := get_l h b in Ret z | XS _ => Ret 1 end in
  Ret (alloc h (CellL k v x (1 + z))).

(** snode.rs:23-25, [SNode::new]. *)
Definition hs_new (h : heap) (k : K) (v : V) : addr * heap := alloc h (CellS k v).

(** results.rs:31-37, [InsertResult]: the new node and where its entry is, and
    the replaced entry. *)
Inductive hinsert_result : Set :=
| HFound (a : addr)
| HInserted (n : hnode) (a : addr) (prev : option addr).

(** results.rs:71-78, [RemoveResult]. *)
Inductive hremove_result : Set :=
| HNotFound
| HRemoved (n : hnode) (a : addr)
| HZ (a : addr).

(** results.rs:80-85, [LNodeRemoveResult]. *)
Inductive hlremove_result : Set :=
| HLNotFound
| HLRemoved (x : hnext) (a : addr).

(** cnode.rs:1615-1630, [lift_to_cnode_and_insert]; fuel as in [c_lift]. *)
Fixpoint hc_lift (fuel : nat) (h : heap) (this : hnode) (this_flag : Flag) (right : hnode) (right_flag : Flag)
  : outcome (addr * heap) :=
  match fuel with
  | O => Diverge
  | S fuel' =>
      let* z1 := h_size h this in
      let* z2 := h_size h right in
      let size := z1 + z2 in
      if fl_flag this_flag =? fl_flag right_flag then
        let* tn := flag_next this_flag in
        let* tn := unwrap tn in
        let* rn := flag_next right_flag in
        let* rn := unwrap rn in
        let* (a, h) := hc_lift fuel' h this tn right rn in
        let* b := unwrap_ok (new_bia (fl_flag this_flag) [HC a] size) in
        Ret (alloc h (CellC b))
      else
        let* flags := unwrap_ok (bit_insert (fl_flag this_flag) (fl_flag right_flag)) in
        let* i := unwrap_ok (bit_index flags (fl_flag this_flag)) in
        let values := if i =? 0 then [this; right] else [right; this] in
        let* b := unwrap_ok (new_bia flags values size) in
        Ret (alloc h (CellC b))
  end.

(** lnode.rs:12-18, [LNodeNext::key]. *)
Definition hnext_key (h : heap) (x : hnext) : outcome K :=
  match x with
  | XL a => let* (e, _, _) := get_l h a in Ret (fst e)
  | XS a => let* e := get_s h a in Ret (fst e)
  end.

(** lnode.rs:1213-1236, [lift_to_cnode_and_insert]. *)
Definition hl_lift (h : heap) (this : hnext) (k : K) (v : V) (key_flag : Flag) : outcome (hinsert_result * heap) :=
  let* tk := hnext_key h this in
  let this_hash := hashk tk in
  if this_hash =? fl_hash key_flag then
    let* (a, h) := hl_new h k v this in
    Ret (HInserted (HL a) a None, h)
  else
    let* tf := flag_new_at_depth this_hash (fl_depth key_flag) in
    let* tf := unwrap tf in
    let (s, h) := hs_new h k v in
    let* (a, h) := hc_lift lift_fuel h (hnext_node this) tf (HS s) key_flag in
    Ret (HInserted (HC a) s None, h).

Section Query.
Context {Q : Type} {KQ : Key Q}.

(** snode.rs:31-38. *)
Definition hs_find (h : heap) (a : addr) (q : Q) : outcome (option addr) :=
  let* e := get_s h a in
  Ret (if keqb (fst e) q then Some a else None).

(** lnode.rs:75-85. *)
Fixpoint hl_find (fuel : nat) (h : heap) (a : addr) (q : Q) : outcome (option addr) :=
  match fuel with
  | O => Diverge
  | S fuel' =>
      let* (e, x, _) := get_l h a in
      if keqb (fst e) q then Ret (Some a)
      else match x with
           | XL b => hl_find fuel' h b q
           | XS b => hs_find h b q
           end
  end.

(** mnode.rs:22-31, cnode.rs:24-33. *)
Fixpoint h_find (fuel : nat) (h : heap) (n : hnode) (q : Q) (flag : option Flag) : outcome (option addr) :=
  match fuel with
  | O => Diverge
  | S fuel' =>
      match n with
      | HC a =>
          let* c := get_c h a in
          let* f := unwrap flag in
          match bat c (fl_flag f) with
          | Ok (HC b) => let* nx := flag_next f in h_find fuel' h (HC b) q nx
          | Ok (HL b) => hl_find fuel' h b q
          | Ok (HS b) => hs_find h b q
          | Err _ => Ret None
          end
      | HL a => hl_find fuel h a q
      | HS a => hs_find h a q
      end
  end.

(** lnode.rs:129-149, [remove_from_lnode]. *)
Fixpoint hl_remove_from (fuel : nat) (h : heap) (a : addr) (q : Q) : outcome (hlremove_result * heap) :=
  match fuel with
  | O => Diverge
  | S fuel' =>
      let* (e, x, _) := get_l h a in
      if keqb (fst e) q then Ret (HLRemoved x a, h)
      else match x with
           | XL b =>
               let* (r, h) := hl_remove_from fuel' h b q in
               match r with
               | HLNotFound => Ret (HLNotFound, h)
               | HLRemoved y c =>
                   let* (l, h) := hl_new h (fst e) (snd e) y in
                   Ret (HLRemoved (XL l) c, h)
               end
           | XS b =>
               let* e' := get_s h b in
               if keqb (fst e') q then
                 let (s, h) := hs_new h (fst e) (snd e) in
                 Ret (HLRemoved (XS s) b, h)
               else Ret (HLNotFound, h)
           end
  end.

(** snode.rs:42-63, [insert]. *)
Definition hs_insert (h : heap) (this : addr) (q : Q) (k : K) (v : V) (key_flag : option Flag) (replace : bool)
  : outcome (hinsert_result * heap) :=
  let* e := get_s h this in
  if keqb (fst e) q then
    if replace then
      let (s, h) := hs_new h k v in
      Ret (HInserted (HS s) s (Some this), h)
    else Ret (HFound this, h)
  else
    let* f := unwrap key_flag in
    hl_lift h (XS this) k v f.

(** lnode.rs:89-119, [insert]. *)
Definition hl_insert (fuel : nat) (h : heap) (this : addr) (q : Q) (k : K) (v : V) (key_flag : option Flag) (replace : bool)
  : outcome (hinsert_result * heap) :=
  let* found := hl_find fuel h this q in
  match found with
  | Some a =>
      if replace then
        let* (r, h) := hl_remove_from fuel h this q in
        match r with
        | HLRemoved x p => let* (l, h) := hl_new h k v x in Ret (HInserted (HL l) l (Some p), h)
        | HLNotFound => Panic
        end
      else Ret (HFound a, h)
  | None =>
      let* f := unwrap key_flag in
      hl_lift h (XL this) k v f
  end.

(** mnode.rs:33-44, cnode.rs:77-115.  The array of a new branch holds the
    handles of the old one except at one slot: bit_indexed_array.rs:174-230
    clone the [Arc]s. *)
Fixpoint h_insert (fuel : nat) (h : heap) (n : hnode) (q : Q) (k : K) (v : V) (flag : option Flag) (replace : bool)
  : outcome (hinsert_result * heap) :=
  match fuel with
  | O => Diverge
  | S fuel' =>
      match n with
      | HC a =>
          let* self := get_c h a in
          let* f := unwrap flag in
          match bat self (fl_flag f) with
          | Ok child =>
              let* nx := flag_next f in
              let* (r, h) := match child with
                             | HC b => h_insert fuel' h (HC b) q k v nx replace
                             | HL b => hl_insert fuel' h b q k v nx replace
                             | HS b => hs_insert h b q k v nx replace
                             end in
              match r with
              | HFound x => Ret (HFound x, h)
              | HInserted child2 x prev =>
                  let* size := match child, child2 with
                               | HC _, HC _ | HL _, HL _ =>
                                   let* z2 := h_size h child2 in
                                   let* z := h_size h child in
                                   usub (bextra self + z2) z
                               | HL _, HC _ | HS _, HC _ | HS _, HL _ => Ret (bextra self + 1)
                               | HS _, HS _ => Ret (bextra self)
                               | HC _, _ | HL _, HS _ => Panic   (* no such case in the callee's result type *)
                               end in
                  let* b := unwrap_ok (bupdated self (fl_flag f) child2 size) in
                  let (c, h) := alloc h (CellC b) in
                  Ret (HInserted (HC c) x prev, h)
              end
          | Err _ =>
              let (s, h) := hs_new h k v in
              let* b := unwrap_ok (binserted self (fl_flag f) (HS s) (bextra self + 1)) in
              let (c, h) := alloc h (CellC b) in
              Ret (HInserted (HC c) s None, h)
          end
      | HL a => hl_insert fuel h a q k v flag replace
      | HS a => hs_insert h a q k v flag replace
      end
  end.

(** mnode.rs:46-52, cnode.rs:35-62; lnode.rs:121-127, snode.rs:65-72. *)
Fixpoint h_remove (fuel : nat) (h : heap) (n : hnode) (q : Q) (flag : option Flag) : outcome (hremove_result * heap) :=
  match fuel with
  | O => Diverge
  | S fuel' =>
      match n with
      | HC a =>
          let* self := get_c h a in
          let* f := unwrap flag in
          match bat self (fl_flag f) with
          | Ok child =>
              let* nx := flag_next f in
              let* (r, h) := h_remove fuel' h child q nx in
              match r with
              | HNotFound => Ret (HNotFound, h)
              | HRemoved child2 x =>
                  let* z := match child2 with HC _ => h_size h child2 | _ => Ret 1 end in
                  if z =? 0 then Panic
                  else
                    let* size := usub (bextra self) 1 in
                    let* b := unwrap_ok (bupdated self (fl_flag f) child2 size) in
                    let (c, h) := alloc h (CellC b) in
                    Ret (HRemoved (HC c) x, h)
              | HZ x =>
                  if bextra self =? 1 then Ret (HZ x, h)
                  else
                    let* size := usub (bextra self) 1 in
                    let* b := unwrap_ok (bremoved self (fl_flag f) size) in
                    let (c, h) := alloc h (CellC b) in
                    Ret (HRemoved (HC c) x, h)
              end
          | Err _ => Ret (HNotFound, h)
          end
      | HL a =>
          let* (r, h) := hl_remove_from fuel h a q in
          match r with
          | HLNotFound => Ret (HNotFound, h)
          | HLRemoved x p => Ret (HRemoved (hnext_node x) p, h)
          end
      | HS a =>
          let* e := get_s h a in
          Ret (if keqb (fst e) q then HZ a else HNotFound, h)
      end
  end.

End Query.

(** * The public operations *)

(** Fuel for one operation. *)
Definition enough (h : heap) : nat := S (length h).

(** hash_trie.rs:12-16, :205-209; cnode.rs:1640-1644: a fresh empty branch. *)
Definition hm_new (h : heap) : hnode * heap :=
  let (a, h) := alloc h (CellC bdefault) in (HC a, h).

(** hash_trie.rs:25-27, map.rs:83-85. *)
Definition hm_size (h : heap) (m : hnode) : outcome N := h_size h m.

(** hash_trie.rs:61-63, map.rs:110-112. *)
Definition hm_visit (h : heap) (m : hnode) : outcome (list (K * V)) := h_visit (enough h) h m.

(** hash_trie.rs:200-204, map.rs (derived), mnode.rs:347-355, cnode.rs:1632-1638: a
    clone of the [Arc]. *)
Definition hm_clone (m : hnode) : hnode := m.

(** hash_trie.rs:213-217, map.rs:279; mnode.rs:365-388, cnode.rs:1648-1652: equality of
    the kind of root and of the address. *)
Definition hm_eq (m n : hnode) : bool :=
  match m, n with
  | HC a, HC b | HL a, HL b | HS a, HS b => Nat.eqb a b
  | _, _ => false
  end.

(** hash_trie.rs:29-34, map.rs:88-90. *)
Definition hm_find {Q} {KQ : Key Q} (h : heap) (m : hnode) (q : Q) : outcome (result addr trie_error) :=
  let* f := flag_new (hashk q) in
  let* r := h_find (enough h) h m q (Some f) in
  match r with
  | Some a => Ret (Ok a)
  | None => Ret (Err NotFound)
  end.

(** hash_trie.rs:36-49, map.rs:95-102. *)
Definition hm_insert {Q} {KQ : Key Q} (into : Q -> K) (h : heap) (m : hnode) (q : Q) (v : V) (replace : bool)
  : outcome (result (hnode * addr * option addr) addr * heap) :=
  let* f := flag_new (hashk q) in
  let* (r, h) := h_insert (enough h) h m q (into q) v (Some f) replace in
  match r with
  | HFound a => Ret (Err a, h)
  | HInserted n a prev => Ret (Ok (n, a, prev), h)
  end.

(** hash_trie.rs:51-59, map.rs:105-107. *)
Definition hm_remove {Q} {KQ : Key Q} (h : heap) (m : hnode) (q : Q)
  : outcome (result (hnode * addr) trie_error * heap) :=
  let* f := flag_new (hashk q) in
  let* (r, h) := h_remove (enough h) h m q (Some f) in
  match r with
  | HNotFound => Ret (Err NotFound, h)
  | HRemoved n a => Ret (Ok (n, a), h)
  | HZ a => let (n, h) := hm_new h in Ret (Ok (n, a), h)
  end.

End Heap.
