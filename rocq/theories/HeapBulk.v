(** transform, transmute and the joint operations running on shared
    allocations (Heap.v): which nodes they create, and which they reuse by
    cloning an [Arc] (src/node/snode.rs, lnode.rs, cnode.rs, mnode.rs,
    src/hash_trie.rs).  The same functions on trees are in Transform.v, Joint.v
    and JointT.v.

    The operands are followed through their [Arc]s first ([h_deref]) and the
    functions below work on what was found, each node with its address.  The
    code follows an [Arc] when it needs it; cells never change, so it finds the
    same.  With MiddleIndex the order in which the two halves allocate is not
    fixed by the code; here the left half goes first. *)
From Coq Require Import NArith Arith List Bool.
From Verif Require Import Base Words Flag Bia Node Api Trans Transform Joint JointT Heap.
Import ListNotations.
Open Scope N_scope.

(** * Nodes with their addresses *)

(** snode.rs:6-9 behind an [Arc]. *)
Inductive dleaf (K V : Type) : Type := DSN (a : addr) (k : K) (v : V).
Arguments DSN {K V} a k v.

(** lnode.rs:31-36 behind an [Arc]; compare [lnode] (Node.v). *)
Inductive dlist (K V : Type) : Type :=
| DLL (a : addr) (k : K) (v : V) (next : dlist K V) (size : N)
| DLS (a : addr) (k : K) (v : V) (next : dleaf K V) (size : N).
Arguments DLL {K V} a k v next size.
Arguments DLS {K V} a k v next size.

(** lnode.rs:6-9. *)
Inductive dnext (K V : Type) : Type :=
| DNL (l : dlist K V)
| DNS (s : dleaf K V).
Arguments DNL {K V} l.
Arguments DNS {K V} s.

(** mnode.rs:6-10. *)
Inductive dnode (K V : Type) : Type :=
| DC (a : addr) (c : bia (dnode K V))
| DL (l : dlist K V)
| DS (s : dleaf K V).
Arguments DC {K V} a c.
Arguments DL {K V} l.
Arguments DS {K V} s.

Section Deref.
Context {K V : Type}.

(** snode.rs:11-19, lnode.rs:40-47: accessors. *)
Definition ds_addr (s : dleaf K V) : addr := match s with DSN a _ _ => a end.
Definition ds_entry (s : dleaf K V) : K * V := match s with DSN _ k v => (k, v) end.
Definition dl_addr (l : dlist K V) : addr := match l with DLL a _ _ _ _ | DLS a _ _ _ _ => a end.
Definition dl_entry (l : dlist K V) : K * V := match l with DLL _ k v _ _ | DLS _ k v _ _ => (k, v) end.
Definition dl_next (l : dlist K V) : dnext K V := match l with DLL _ _ _ n _ => DNL n | DLS _ _ _ s _ => DNS s end.
Definition dl_size (l : dlist K V) : N := match l with DLL _ _ _ _ z | DLS _ _ _ _ z => z end.
(** lnode.rs:12-18. *)
Definition dn_key (n : dnext K V) : K := match n with DNL l => fst (dl_entry l) | DNS s => fst (ds_entry s) end.

(** Cloning the [Arc]. *)
Definition dn_next (n : dnext K V) : hnext := match n with DNL l => XL (dl_addr l) | DNS s => XS (ds_addr s) end.
Definition d_node (n : dnode K V) : hnode :=
  match n with DC a _ => HC a | DL l => HL (dl_addr l) | DS s => HS (ds_addr s) end.
(** lnode.rs:21-28. *)
Definition dn_node (n : dnext K V) : dnode K V := match n with DNL l => DL l | DNS s => DS s end.
(** mnode.rs:14-20. *)
Definition d_size (n : dnode K V) : N := match n with DC _ c => bextra c | DL l => dl_size l | DS _ => 1 end.

(** Following the [Arc]s below a handle. *)
Definition hs_deref (h : heap K V) (a : addr) : outcome (dleaf K V) :=
  let* e := get_s h a in Ret (DSN a (fst e) (snd e)).
Fixpoint hl_deref (fuel : nat) (h : heap K V) (a : addr) : outcome (dlist K V) :=
  match fuel with
  | O => Diverge
  | S fuel' =>
      let* (e, x, z) := get_l h a in
      match x with
      | XL b => let* l := hl_deref fuel' h b in Ret (DLL a (fst e) (snd e) l z)
      | XS b => let* s := hs_deref h b in Ret (DLS a (fst e) (snd e) s z)
      end
  end.
Fixpoint every {A B} (f : A -> outcome B) (l : list A) : outcome (list B) :=
  match l with
  | [] => Ret []
  | a :: l' => let* b := f a in let* r := every f l' in Ret (b :: r)
  end.
Fixpoint h_deref (fuel : nat) (h : heap K V) (n : hnode) : outcome (dnode K V) :=
  match fuel with
  | O => Diverge
  | S fuel' =>
      match n with
      | HC a =>
          let* c := get_c h a in
          let* vs := every (h_deref fuel' h) (bvalues c) in
          Ret (DC a (BIA (bbits c) vs (bextra c)))
      | HL a => let* l := hl_deref fuel h a in Ret (DL l)
      | HS a => let* s := hs_deref h a in Ret (DS s)
      end
  end.

End Deref.

(** * Results *)

(** results.rs, [MNodeTransmuteResult] and the subsets of it; C, L and S are
    told apart by the handle. *)
Inductive hnres (R : Type) : Type :=
| HNN (n : hnode) (r : R)
| HNZ (r : R).
Arguments HNN {R} n r.
Arguments HNZ {R} r.

(** results.rs, [MNodeTransformResult]. *)
Inductive htres (R : Type) : Type :=
| HTU (r : R)
| HTN (n : hnres R).
Arguments HTU {R} r.
Arguments HTN {R} n.

(** results.rs, [MNodeJointTransformResult]. *)
Inductive hjres (R : Type) : Type :=
| HJLR (r : R)
| HJL (r : R)
| HJR (r : R)
| HJN (n : hnres R).
Arguments HJLR {R} r.
Arguments HJL {R} r.
Arguments HJR {R} r.
Arguments HJN {R} n.

Definition hnnode {R} (n : hnres R) : option hnode := match n with HNN x _ => Some x | HNZ _ => None end.
Definition hnred {R} (n : hnres R) : R := match n with HNN _ r | HNZ r => r end.
Definition hn_with {R} (n : hnres R) (r : R) : hnres R := match n with HNN x _ => HNN x r | HNZ _ => HNZ r end.
(** The same where a branch never arises (lnode.rs:1185-1190, :1205-1209). *)
Definition hn_keep {R} (n : hnres R) (r : R) : hnres R := match n with HNN (HC _) _ => HNZ r | _ => hn_with n r end.
Definition htred {R} (t : htres R) : R := match t with HTU r => r | HTN n => hnred n end.
Definition ht_with {R} (t : htres R) (r : R) : htres R := match t with HTU _ => HTU r | HTN n => HTN (hn_with n r) end.
(** The node a result stands for, given the node transformed. *)
Definition htout {R} (n : hnode) (t : htres R) : option hnode := match t with HTU _ => Some n | HTN x => hnnode x end.
Definition hjred {R} (j : hjres R) : R := match j with HJLR r | HJL r | HJR r => r | HJN n => hnred n end.
(** results.rs:241-253. *)
Definition hjres_flip {R} (j : hjres R) : hjres R := match j with HJL r => HJR r | HJR r => HJL r | _ => j end.
Definition ht_left {R} (t : htres R) : hjres R := match t with HTU r => HJL r | HTN n => HJN n end.
Definition ht_right {R} (t : htres R) : hjres R := match t with HTU r => HJR r | HTN n => HJN n end.

(** * The loop of every CNode traversal (Trans.v) *)

(** cnode.rs:179-183, :488-493. *)
Record hacc (R : Type) : Type := HAcc {
  ha_size : N;
  ha_bits : N;
  ha_values : list hnode;
  ha_ul : bool;
  ha_ur : bool;
  ha_red : R
}.
Arguments HAcc {R} ha_size ha_bits ha_values ha_ul ha_ur ha_red.
Arguments ha_size {R} h.
Arguments ha_bits {R} h.
Arguments ha_values {R} h.
Arguments ha_ul {R} h.
Arguments ha_ur {R} h.
Arguments ha_red {R} h.

Section Loop.
Context {E : Env} {S X R : Type} {NZ : Noise S X}.
Context (rdef : R) (rd : R -> R -> R).
Notation heap := (heap S X).

Definition hacc0 : hacc R := HAcc 0 0 [] true true rdef.

(** cnode.rs:189-192; the handle is cloned or moved. *)
Definition hpush (a : hacc R) (index : N) (n : hnode) (size : N) (r : R) : outcome (hacc R) :=
  let* bit := unwrap_ok (nth_bit fw index) in
  let* bits := unwrap_ok (bit_insert (ha_bits a) bit) in
  Ret (HAcc (ha_size a + size) bits (ha_values a ++ [n]) (ha_ul a) (ha_ur a) (rd (ha_red a) r)).

(** cnode.rs:194-218. *)
Definition hpush_new (w : heap) (a : hacc R) (index : N) (n : hnres R) : outcome (hacc R) :=
  match n with
  | HNN x r => let* z := h_size w x in hpush a index x z r
  | HNZ r => Ret (HAcc (ha_size a) (ha_bits a) (ha_values a) (ha_ul a) (ha_ur a) (rd (ha_red a) r))
  end.

Definition hset_ul (a : hacc R) : hacc R := HAcc (ha_size a) (ha_bits a) (ha_values a) false (ha_ur a) (ha_red a).
Definition hset_ur (a : hacc R) : hacc R := HAcc (ha_size a) (ha_bits a) (ha_values a) (ha_ul a) false (ha_red a).

Fixpoint hloop (step : hacc R -> N -> heap -> outcome (hacc R * heap)) (l : list N) (a : hacc R) (w : heap)
  : outcome (hacc R * heap) :=
  match l with
  | [] => Ret (a, w)
  | i :: l' => let* (a, w) := step a i w in hloop step l' a w
  end.

(** cnode.rs:139-149, :434-452. *)
Definition hhalves (step : hacc R -> N -> heap -> outcome (hacc R * heap)) (w : heap) : outcome (hacc R * heap) :=
  let half := max_ones fw / 2 in
  let* (l, w) := hloop step (range 0 half) hacc0 w in
  let* (r, w) := hloop step (range half (max_ones fw)) hacc0 w in
  let* bits := unwrap_ok (bit_merge (ha_bits l) (ha_bits r)) in
  Ret (HAcc (ha_size l + ha_size r) bits (ha_values l ++ ha_values r) (ha_ul l && ha_ul r) (ha_ur l && ha_ur r)
            (rd (ha_red l) (ha_red r)), w).

(** cnode.rs:136-153, :432-455. *)
Definition hrun_loop (st : strategy) (step : hacc R -> N -> heap -> outcome (hacc R * heap)) (w : heap) : outcome (hacc R * heap) :=
  match st with
  | MiddleIndex => hhalves step w
  | Sequential => hloop step (range 0 (max_ones fw)) hacc0 w
  end.

(** cnode.rs:159-166: the only child left, if it is a leaf or a list, is
    returned; otherwise a branch is allocated. *)
Definition hfinish (a : hacc R) (w : heap) : outcome (hnres R * heap) :=
  match ha_values a with
  | [] => Ret (HNZ (ha_red a), w)
  | [HL l] => Ret (HNN (HL l) (ha_red a), w)
  | [HS s] => Ret (HNN (HS s) (ha_red a), w)
  | values =>
      let* b := unwrap_ok (new_bia (ha_bits a) values (ha_size a)) in
      let (c, w) := alloc w (CellC b) in
      Ret (HNN (HC c) (ha_red a), w)
  end.

(** [LNode::new(k, v, ...)] on what a traversal left, or [SNode::new(k, v)]
    when it left nothing. *)
Definition hn_cons (k : S) (v : X) (n : hnres R) (r : R) (w : heap) : outcome (hnres R * heap) :=
  match n with
  | HNN (HL a) _ => let* (b, w) := hl_new w k v (XL a) in Ret (HNN (HL b) r, w)
  | HNN (HS a) _ => let* (b, w) := hl_new w k v (XS a) in Ret (HNN (HL b) r, w)
  | HNZ _ => let (b, w) := hs_new w k v in Ret (HNN (HS b) r, w)
  | HNN (HC _) _ => Ret (HNZ r, w)   (* never arises *)
  end.
(** A new leaf, a new list node. *)
Definition new_s (k : S) (v : X) (r : R) (w : heap) : outcome (hnres R * heap) :=
  let (b, w) := hs_new w k v in Ret (HNN (HS b) r, w).
Definition new_l (k : S) (v : X) (x : hnext) (r : R) (w : heap) : outcome (hnres R * heap) :=
  let* (b, w) := hl_new w k v x in Ret (HNN (HL b) r, w).
(** A result with its case. *)
Definition as_t (o : outcome (hnres R * heap)) : outcome (htres R * heap) := let* (n, w) := o in Ret (HTN n, w).
Definition as_j (o : outcome (hnres R * heap)) : outcome (hjres R * heap) := let* (n, w) := o in Ret (HJN n, w).
Definition ht_cons (that : hnext) (k : S) (v : X) (t : htres R) (r : R) (w : heap) : outcome (htres R * heap) :=
  match t with
  | HTU _ => as_t (new_l k v that r w)
  | HTN n => as_t (hn_cons k v n r w)
  end.
(** The rest of a list, its [Arc] cloned. *)
Definition hnext_nres (x : hnext) (r : R) : hnres R := HNN (hnext_node x) r.

End Loop.

(** * transform *)
Section Transform.
Context {E : Env} {K V R : Type} {NZ : Noise K V}.
Context (rdef : R) (rd : R -> R -> R).
Notation heap := (heap K V).

(** snode.rs:74-84. *)
Definition hs_transform (op : transform_op (K * V) V R) (s : dleaf K V) (w : heap) : outcome (htres R * heap) :=
  match tcall op (ds_entry s) with
  | VUnchanged r => Ret (HTU r, w)
  | VTransformed v r => as_t (new_s (fst (ds_entry s)) v r w)
  | VDropped r => Ret (HTN (HNZ r), w)
  end.

(** lnode.rs:1164-1192. *)
Definition hl_transform_result (this : dlist K V) (result : vres V R) (next : htres R) (w : heap) : outcome (htres R * heap) :=
  let (k, v) := dl_entry this in
  match result with
  | VUnchanged lr =>
      match next with
      | HTU rr => Ret (HTU (rd lr rr), w)
      | HTN n => as_t (hn_cons k v n (rd lr (hnred n)) w)
      end
  | VTransformed lv lr =>
      match next with
      | HTU rr => as_t (new_l k lv (dn_next (dl_next this)) (rd lr rr) w)
      | HTN n => as_t (hn_cons k lv n (rd lr (hnred n)) w)
      end
  | VDropped lr =>
      match next with
      | HTU rr => Ret (HTN (hnext_nres (dn_next (dl_next this)) (rd lr rr)), w)
      | HTN n => Ret (HTN (hn_keep n (rd lr (hnred n))), w)
      end
  end.

(** lnode.rs:151-176. *)
Fixpoint hl_transform (op : transform_op (K * V) V R) (this : dlist K V) (w : heap) : outcome (htres R * heap) :=
  match op with
  | TGeneric _ =>
      let* (next, w) :=
        match this with
        | DLL _ _ _ n _ => hl_transform op n w
        | DLS _ _ _ s _ => hs_transform op s w
        end in
      hl_transform_result this (tcall op (dl_entry this)) next w
  | TUnchanged r => Ret (HTU r, w)
  | TRemoved r => Ret (HTN (HNZ r), w)
  end.

(** cnode.rs:185-219. *)
Definition hc_transform_step (self : bia (dnode K V * (heap -> outcome (htres R * heap)))) (a : hacc R) (index : N) (w : heap)
  : outcome (hacc R * heap) :=
  let* o := bat_bit_index fw self index in
  match o with
  | Ok (node, run) =>
      let* (t, w) := run w in
      match t with
      | HTU r => let* a := hpush rd a index (d_node node) (d_size node) r in Ret (a, w)
      | HTN n => let* a := hpush_new rd w a index n in Ret (hset_ul a, w)
      end
  | Err _ => Ret (a, w)
  end.

(** mnode.rs:62-74, cnode.rs:117-222. *)
Fixpoint h_transform (st : strategy) (op : transform_op (K * V) V R) (n : dnode K V) (w : heap) {struct n} : outcome (htres R * heap) :=
  match n with
  | DC _ (BIA bits values extra) =>
      match op with
      | TGeneric _ =>
          let* (a, w) := hrun_loop rdef rd st
            (hc_transform_step (BIA bits (map (fun c => (c, h_transform st op c)) values) extra)) w in
          if ha_ul a then Ret (HTU (ha_red a), w) else as_t (hfinish a w)
      | TUnchanged r => Ret (HTU r, w)
      | TRemoved r => Ret (HTN (HNZ r), w)
      end
  | DL l => hl_transform op l w
  | DS s => hs_transform op s w
  end.

End Transform.

(** * transmute: reads one heap, writes another *)
Section Transmute.
Context {E : Env} {K V S X R : Type} {NZ : Noise S X}.
Context (rdef : R) (rd : R -> R -> R).
Notation heap := (heap S X).

(** snode.rs:86-94, results.rs:389. *)
Definition hk_nres (r : kres S X R) (w : heap) : outcome (hnres R * heap) :=
  match r with
  | KTransmuted k v r => new_s k v r w
  | KDropped r => Ret (HNZ r, w)
  end.
Definition hs_transmute (op : transmute_op (K * V) S X R) (s : dleaf K V) (w : heap) : outcome (hnres R * heap) :=
  hk_nres (mcall op (ds_entry s)) w.

(** lnode.rs:1194-1211. *)
Definition hl_transmute_result (result : kres S X R) (next : hnres R) (w : heap) : outcome (hnres R * heap) :=
  match result with
  | KTransmuted lk lv lr => hn_cons lk lv next (rd lr (hnred next)) w
  | KDropped lr => Ret (hn_keep next (rd lr (hnred next)), w)
  end.

(** lnode.rs:178-206. *)
Fixpoint hl_transmute (op : transmute_op (K * V) S X R) (this : dlist K V) (w : heap) : outcome (hnres R * heap) :=
  match op with
  | MGeneric _ =>
      let* (next, w) :=
        match this with
        | DLL _ _ _ n _ => hl_transmute op n w
        | DLS _ _ _ s _ => hs_transmute op s w
        end in
      hl_transmute_result (mcall op (dl_entry this)) next w
  | MRemoved r => Ret (HNZ r, w)
  end.

(** cnode.rs:243-266. *)
Definition hc_transmute_step (self : bia (heap -> outcome (hnres R * heap))) (a : hacc R) (index : N) (w : heap)
  : outcome (hacc R * heap) :=
  let* o := bat_bit_index fw self index in
  match o with
  | Ok run => let* (n, w) := run w in let* a := hpush_new rd w a index n in Ret (a, w)
  | Err _ => Ret (a, w)
  end.

(** mnode.rs:76-91, cnode.rs:224-282. *)
Fixpoint h_transmute (op : transmute_op (K * V) S X R) (n : dnode K V) (w : heap) {struct n} : outcome (hnres R * heap) :=
  match n with
  | DC _ (BIA bits values extra) =>
      match op with
      | MGeneric _ =>
          let* (a, w) := hloop (hc_transmute_step (BIA bits (map (h_transmute op) values) extra))
            (range 0 (max_ones fw)) (hacc0 rdef) w in
          if lenN (ha_values a) =? count_ones (ha_bits a) then hfinish a w else Panic   (* assert_eq!, 268 *)
      | MRemoved r => Ret (HNZ r, w)
      end
  | DL l => hl_transmute op l w
  | DS s => hs_transmute op s w
  end.

End Transmute.

(** * The joint traversals (Joint.v) *)
Section Traverse.
Context {E : Env} {K V L W S X R T : Type} {KL : Key L}.
Context (rdef : R) (rd : R -> R -> R).
Notation heap := (heap S X).
Context (add : hacc R -> N -> option (dnode K V) -> option (dnode L W) -> T -> heap -> outcome (hacc R)).
Context (lone : dnode K V -> heap -> outcome (T * heap)) (rone : dnode L W -> heap -> outcome (T * heap))
  (done : hacc R -> heap -> outcome (T * heap)).

(** cnode.rs:495-582, :608-653, :695-742, :791-827. *)
Definition hcc_step (self : bia (dnode K V * (dnode L W -> heap -> outcome (T * heap)))) (right : bia (dnode L W))
  (a : hacc R) (index : N) (w : heap) : outcome (hacc R * heap) :=
  let* ol := bat_bit_index fw self index in
  let* or := bat_bit_index fw right index in
  match ol, or with
  | Ok (l, both), Ok r => let* (t, w) := both r w in let* a := add a index (Some l) (Some r) t w in Ret (a, w)
  | Ok (l, _), Err _ => let* (t, w) := lone l w in let* a := add a index (Some l) None t w in Ret (a, w)
  | Err _, Ok r => let* (t, w) := rone r w in let* a := add a index None (Some r) t w in Ret (a, w)
  | Err _, Err _ => Ret (a, w)
  end.

(** cnode.rs:862-941, :993-1037, :1084-1132, :1182-1215, :1250-1327, :1380-1423,
    :1470-1513, :1567-1600. *)
Definition hcl_step (flag : N) (right : dnode L W) (depth : N) (self : bia (dnode K V * (N -> heap -> outcome (T * heap))))
  (a : hacc R) (index : N) (w : heap) : outcome (hacc R * heap) :=
  let* ol := bat_bit_index fw self index in
  let* bit := unwrap_ok (nth_bit fw index) in
  match ol with
  | Ok (l, both) =>
      if flag =? bit then let* (t, w) := both (depth + 1) w in let* a := add a index (Some l) (Some right) t w in Ret (a, w)
      else let* (t, w) := lone l w in let* a := add a index (Some l) (Some right) t w in Ret (a, w)
  | Err _ =>
      if flag =? bit then let* (t, w) := rone right w in let* a := add a index None (Some right) t w in Ret (a, w)
      else Ret (a, w)
  end.

Context (leaf : dnext K V -> dnext L W -> N -> heap -> outcome (T * heap)).

(** mnode.rs:177-343, cnode.rs:842-1613. *)
Fixpoint h_leaf (right : dnext L W) (n : dnode K V) (depth : N) (w : heap) {struct n} : outcome (T * heap) :=
  match n with
  | DC _ (BIA bits values extra) =>
      let* flag := flag_new_at_depth (hashk (dn_key right)) depth in
      let* flag := unwrap flag in
      let* (a, w) := hloop (hcl_step (fl_flag flag) (dn_node right) depth
                              (BIA bits (map (fun c => (c, h_leaf right c)) values) extra))
                       (range 0 (max_ones fw)) (hacc0 rdef) w in
      done a w
  | DL l => leaf (DNL l) right depth w
  | DS s => leaf (DNS s) right depth w
  end.

Context (tree_leaf : dnext L W -> dnode K V -> N -> heap -> outcome (T * heap)).
Context (leaf_tree : dnext K V -> dnode L W -> N -> heap -> outcome (T * heap)).
Context (short : option T) (st : strategy).

(** mnode.rs:93-175, cnode.rs:285-840. *)
Fixpoint h_joint (n : dnode K V) (right : dnode L W) (depth : N) (w : heap) {struct n} : outcome (T * heap) :=
  match n with
  | DC _ (BIA bits values extra) =>
      match right with
      | DC _ rb =>
          match short with
          | Some t => Ret (t, w)
          | None =>
              let* (a, w) := hrun_loop rdef rd st
                (hcc_step (BIA bits (map (fun c => (c, fun r => h_joint c r (depth + 1))) values) extra) rb) w in
              done a w
          end
      | DL r => tree_leaf (DNL r) n depth w
      | DS r => tree_leaf (DNS r) n depth w
      end
  | DL l =>
      match right with
      | DC _ _ => leaf_tree (DNL l) right depth w
      | DL r => leaf (DNL l) (DNL r) depth w
      | DS r => leaf (DNL l) (DNS r) depth w
      end
  | DS s =>
      match right with
      | DC _ _ => leaf_tree (DNS s) right depth w
      | DL r => leaf (DNS s) (DNL r) depth w
      | DS r => leaf (DNS s) (DNS r) depth w
      end
  end.

End Traverse.

(** lnode.rs:306-319, :444-457, :565-578. *)
Fixpoint hrights_loop {L W} (n : nat) (right r : dlist L W) (rights : list (L * W)) : outcome (list (L * W)) :=
  match n with
  | O => Diverge
  | Datatypes.S n =>
      match dl_next r with
      | DNL l => hrights_loop n right right (rights ++ [dl_entry l])
      | DNS s => Ret (rights ++ [ds_entry s])
      end
  end.

(** lnode.rs:151 and snode.rs:74; lnode.rs:178 and snode.rs:86. *)
Definition hn_transform {E : Env} {K V R} {NZ : Noise K V} (rd : R -> R -> R) (op : transform_op (K * V) V R) (n : dnext K V) (w : heap K V)
  : outcome (htres R * heap K V) :=
  match n with DNL l => hl_transform rd op l w | DNS s => hs_transform op s w end.
Definition hn_transmute {E : Env} {K V S X R} {NZ : Noise S X} (rd : R -> R -> R) (op : transmute_op (K * V) S X R) (n : dnext K V) (w : heap S X)
  : outcome (hnres R * heap S X) :=
  match n with DNL l => hl_transmute rd op l w | DNS s => hs_transmute op s w end.

(** cnode.rs:1615-1630 on two nodes. *)
Definition hlift {E : Env} {S X R} {NZ : Noise S X} (a : hnode) (lf : Flag) (b : hnode) (rf : Flag) (z : R) (w : heap S X)
  : outcome (hnres R * heap S X) :=
  let* (c, w) := hc_lift lift_fuel w a lf b rf in Ret (HNN (HC c) z, w).

(** * transform_with_transmuted: the left map is in the heap written to *)
Section TM.
Context {E : Env} {K V L W R : Type} {KK : Key K} {KL : Key L} {NZ : Noise K V}.
Context (rdef : R) (rd : R -> R -> R).
Context (both : transform_op ((K * V) * (L * W)) V R) (lop : transform_op (K * V) V R)
  (rop : transmute_op (L * W) K V R).
Notation heap := (heap K V).

(** snode.rs:257-278, lnode.rs:480-508, :753-777. *)
Definition htm_apart (this : dnext K V) (right : dnext L W) (depth : N) (w : heap) : outcome (htres R * heap) :=
  let* (l, w) := hn_transform rd lop this w in
  let* (r, w) := hn_transmute rd rop right w in
  let* (lf, rf) := two_flags (dn_key this) (dn_key right) depth in
  let z := rd (htred l) (hnred r) in
  match htout (hnext_node (dn_next this)) l, hnnode r with
  | Some a, Some b => as_t (hlift a lf b rf z w)
  | Some _, None => Ret (ht_with l z, w)
  | None, _ => Ret (HTN (hn_with r z), w)
  end.

(** snode.rs:281-319. *)
Definition htm_s_impl (this : dleaf K V) (right : L * W) (w : heap) : outcome (htres R * heap) :=
  let k := fst (ds_entry this) in
  if keqb k (fst right) then
    match tcall both (ds_entry this, right) with
    | VUnchanged r => Ret (HTU r, w)
    | VTransformed v r => as_t (new_s k v r w)
    | VDropped r => Ret (HTN (HNZ r), w)
    end
  else
    match tcall lop (ds_entry this), mcall rop right with
    | VUnchanged lr, KTransmuted rk rv rr => as_t (new_l rk rv (XS (ds_addr this)) (rd lr rr) w)
    | VUnchanged lr, KDropped rr => Ret (HTU (rd lr rr), w)
    | VTransformed lv lr, KTransmuted rk rv rr =>
        let (s, w) := hs_new w k lv in as_t (new_l rk rv (XS s) (rd lr rr) w)
    | VTransformed lv lr, KDropped rr => as_t (new_s k lv (rd lr rr) w)
    | VDropped lr, KTransmuted rk rv rr => as_t (new_s rk rv (rd lr rr) w)
    | VDropped lr, KDropped rr => Ret (HTN (HNZ (rd lr rr)), w)
    end.

(** lnode.rs:511-539. *)
Fixpoint htm_l_impl (this : dlist K V) (rights : list (L * W)) (w : heap) : outcome ((htres R * list (L * W)) * heap) :=
  let* (p, w) :=
    match this with
    | DLL _ _ _ n _ => htm_l_impl n rights w
    | DLS _ _ _ s _ =>
        match take_key (fst (ds_entry s)) rights with
        | Some (e, rights) => let* (t, w) := htm_s_impl s e w in Ret ((t, rights), w)
        | None => let* (t, w) := hs_transform lop s w in Ret ((t, rights), w)
        end
    end in
  let (next, rights) := (p : htres R * list (L * W)) in
  let (result, rights) :=
    match take_key (fst (dl_entry this)) rights with
    | Some (e, rights) => (tcall both (dl_entry this, e), rights)
    | None => (tcall lop (dl_entry this), rights)
    end in
  let* (t, w) := hl_transform_result rd this result next w in
  Ret ((t, rights), w).

(** lnode.rs:461-475. *)
Fixpoint htm_rest (this : dlist K V) (rights : list (L * W)) (next : htres R) (w : heap) : outcome (htres R * heap) :=
  match rights with
  | [] => Ret (next, w)
  | e :: rights =>
      let* (next, w) :=
        match mcall rop e with
        | KTransmuted rk rv rr => ht_cons (XL (dl_addr this)) rk rv next (rd rr (htred next)) w
        | KDropped rr => Ret (ht_with next (rd rr (htred next)), w)
        end in
      htm_rest this rights next w
  end.

(** lnode.rs:425-509. *)
Definition htm_lnode (this : dlist K V) (right : dlist L W) (depth : N) (w : heap) : outcome (htres R * heap) :=
  if hashk (fst (dl_entry this)) =? hashk (fst (dl_entry right)) then
    let* rights := hrights_loop fuel right right [dl_entry right] in
    let* (p, w) := htm_l_impl this rights w in
    let (next, rights) := (p : htres R * list (L * W)) in
    htm_rest this rights next w
  else htm_apart (DNL this) (DNL right) depth w.

(** lnode.rs:780-808. *)
Fixpoint htm_ls_impl (this : dlist K V) (right : dleaf L W) (w : heap) : outcome (htres R * heap) :=
  if keqb (fst (dl_entry this)) (fst (ds_entry right)) then
    let* (next, w) := hn_transform rd lop (dl_next this) w in
    hl_transform_result rd this (tcall both (dl_entry this, ds_entry right)) next w
  else
    let* (next, w) :=
      match this with
      | DLL _ _ _ n _ => htm_ls_impl n right w
      | DLS _ _ _ s _ => htm_s_impl s (ds_entry right) w
      end in
    hl_transform_result rd this (tcall lop (dl_entry this)) next w.

(** lnode.rs:732-778. *)
Definition htm_lsnode (this : dlist K V) (right : dleaf L W) (depth : N) (w : heap) : outcome (htres R * heap) :=
  if hashk (fst (dl_entry this)) =? hashk (fst (ds_entry right)) then htm_ls_impl this right w
  else htm_apart (DNL this) (DNS right) depth w.

(** snode.rs:237-279. *)
Definition htm_snode (this : dleaf K V) (right : dleaf L W) (depth : N) (w : heap) : outcome (htres R * heap) :=
  if hashk (fst (ds_entry this)) =? hashk (fst (ds_entry right)) then htm_s_impl this (ds_entry right) w
  else htm_apart (DNS this) (DNS right) depth w.

(** cnode.rs:634-654, :1014-1037, :1401-1423. *)
Definition htm_add (keep : bool) (a : hacc R) (index : N) (ol : option (dnode K V)) (or : option (dnode L W))
  (t : htres R) (w : heap) : outcome (hacc R) :=
  match t with
  | HTU r =>
      let* l := unwrap ol in
      let* a := hpush rd a index (d_node l) (d_size l) r in
      Ret (if keep then a else hset_ul a)
  | HTN n => let* a := hpush_new rd w a index n in Ret (hset_ul a)
  end.

(** cnode.rs:656-672, :1040-1056, :1426-1442. *)
Definition htm_done (a : hacc R) (w : heap) : outcome (htres R * heap) :=
  if ha_ul a then Ret (HTU (ha_red a), w) else as_t (hfinish a w).

End TM.

(** * transmute_with_transformed: the right map is in the heap written to *)
Section MT.
Context {E : Env} {K V L W R : Type} {KK : Key K} {KL : Key L} {NZ : Noise L W}.
Context (rdef : R) (rd : R -> R -> R).
Context (both : transform_op ((K * V) * (L * W)) W R) (lop : transmute_op (K * V) L W R)
  (rop : transform_op (L * W) W R).
Notation heap := (heap L W).

(** snode.rs:341-360, lnode.rs:831-854. *)
Definition hmt_apart (this : dnext K V) (right : dnext L W) (depth : N) (w : heap) : outcome (htres R * heap) :=
  let* (l, w) := hn_transmute rd lop this w in
  let* (r, w) := hn_transform rd rop right w in
  let* (lf, rf) := two_flags (dn_key this) (dn_key right) depth in
  let z := rd (hnred l) (htred r) in
  match hnnode l, htout (hnext_node (dn_next right)) r with
  | Some a, Some b => as_t (hlift a lf b rf z w)
  | Some _, None => Ret (HTN (hn_with l z), w)
  | None, _ => Ret (ht_with r z, w)
  end.

(** snode.rs:363-399. *)
Definition hmt_s_impl (this : dleaf K V) (right : dleaf L W) (w : heap) : outcome (htres R * heap) :=
  let rk := fst (ds_entry right) in
  if keqb (fst (ds_entry this)) rk then
    match tcall both (ds_entry this, ds_entry right) with
    | VUnchanged r => Ret (HTU r, w)
    | VTransformed v r => as_t (new_s rk v r w)
    | VDropped r => Ret (HTN (HNZ r), w)
    end
  else
    match mcall lop (ds_entry this), tcall rop (ds_entry right) with
    | KTransmuted lk lv lr, VUnchanged rr => as_t (new_l lk lv (XS (ds_addr right)) (rd lr rr) w)
    | KTransmuted lk lv lr, VTransformed rv rr =>
        let (s, w) := hs_new w rk rv in as_t (new_l lk lv (XS s) (rd lr rr) w)
    | KTransmuted lk lv lr, VDropped rr => as_t (new_s lk lv (rd lr rr) w)
    | KDropped lr, VUnchanged rr => Ret (HTU (rd lr rr), w)
    | KDropped lr, VTransformed rv rr => as_t (new_s rk rv (rd lr rr) w)
    | KDropped lr, VDropped rr => Ret (HTN (HNZ (rd lr rr)), w)
    end.

(** lnode.rs:1119-1141. *)
Definition hmt_hit (this : dleaf L W) (result : vres W R) (next : hnres R) (w : heap) : outcome (hnres R * heap) :=
  let (k, v) := ds_entry this in
  match result with
  | VUnchanged lr => hn_cons k v next (rd lr (hnred next)) w
  | VTransformed lv lr => hn_cons k lv next (rd lr (hnred next)) w
  | VDropped lr => Ret (hn_with next (rd lr (hnred next)), w)
  end.

(** lnode.rs:1143-1162; the last leaf is rebuilt where it could be shared. *)
Definition hmt_miss (this : dleaf L W) (result : kres L W R) (next : htres R) (w : heap) : outcome (htres R * heap) :=
  match result with
  | KTransmuted lk lv lr => ht_cons (XS (ds_addr this)) lk lv next (rd lr (htred next)) w
  | KDropped lr =>
      match next with
      | HTU rr => as_t (new_s (fst (ds_entry this)) (snd (ds_entry this)) (rd lr rr) w)
      | HTN n => Ret (HTN (hn_with n (rd lr (hnred n))), w)
      end
  end.

(** lnode.rs:857-885. *)
Fixpoint hmt_ls_impl (this : dlist K V) (right : dleaf L W) (w : heap) : outcome (htres R * heap) :=
  if keqb (fst (dl_entry this)) (fst (ds_entry right)) then
    let* (next, w) := hn_transmute rd lop (dl_next this) w in
    as_t (hmt_hit right (tcall both (dl_entry this, ds_entry right)) next w)
  else
    let* (next, w) :=
      match this with
      | DLL _ _ _ n _ => hmt_ls_impl n right w
      | DLS _ _ _ s _ => hmt_s_impl s right w
      end in
    hmt_miss right (mcall lop (dl_entry this)) next w.

(** lnode.rs:810-855. *)
Definition hmt_lsnode (this : dlist K V) (right : dleaf L W) (depth : N) (w : heap) : outcome (htres R * heap) :=
  if hashk (fst (dl_entry this)) =? hashk (fst (ds_entry right)) then hmt_ls_impl this right w
  else hmt_apart (DNL this) (DNS right) depth w.

(** snode.rs:321-361. *)
Definition hmt_snode (this : dleaf K V) (right : dleaf L W) (depth : N) (w : heap) : outcome (htres R * heap) :=
  if hashk (fst (ds_entry this)) =? hashk (fst (ds_entry right)) then hmt_s_impl this right w
  else hmt_apart (DNS this) (DNS right) depth w.

(** cnode.rs:723-743, :1099-1132, :1486-1513. *)
Definition hmt_add (keep : bool) (a : hacc R) (index : N) (ol : option (dnode K V)) (or : option (dnode L W))
  (t : htres R) (w : heap) : outcome (hacc R) :=
  match t with
  | HTU r =>
      let* n := unwrap or in
      let* a := hpush rd a index (d_node n) (d_size n) r in
      Ret (if keep then a else hset_ur a)
  | HTN n => let* a := hpush_new rd w a index n in Ret (hset_ur a)
  end.

(** cnode.rs:747-763, :1133-1149, :1518-1534. *)
Definition hmt_done (a : hacc R) (w : heap) : outcome (htres R * heap) :=
  if ha_ur a then Ret (HTU (ha_red a), w) else as_t (hfinish a w).

End MT.

(** * transmute_with_transmuted *)
Section MM.
Context {E : Env} {K V L W S X R : Type} {KK : Key K} {KL : Key L} {NZ : Noise S X}.
Context (rdef : R) (rd : R -> R -> R).
Context (both : transmute_op ((K * V) * (L * W)) S X R) (lop : transmute_op (K * V) S X R)
  (rop : transmute_op (L * W) S X R).
Notation heap := (heap S X).

(** snode.rs:452-469, lnode.rs:599-622, :911-933. *)
Definition hmm_apart (this : dnext K V) (right : dnext L W) (depth : N) (w : heap) : outcome (hnres R * heap) :=
  let* (l, w) := hn_transmute rd lop this w in
  let* (r, w) := hn_transmute rd rop right w in
  let* (lf, rf) := two_flags (dn_key this) (dn_key right) depth in
  let z := rd (hnred l) (hnred r) in
  match hnnode l, hnnode r with
  | Some a, Some b => hlift a lf b rf z w
  | Some _, None => Ret (hn_with l z, w)
  | None, _ => Ret (hn_with r z, w)
  end.

(** snode.rs:472-506. *)
Definition hmm_values (this : K * V) (right : L * W) (w : heap) : outcome (hnres R * heap) :=
  if keqb (fst this) (fst right) then hk_nres (mcall both (this, right)) w
  else
    match mcall lop this, mcall rop right with
    | KTransmuted lk lv lr, KTransmuted rk rv rr => let (s, w) := hs_new w rk rv in new_l lk lv (XS s) (rd lr rr) w
    | KTransmuted lk lv lr, KDropped rr => new_s lk lv (rd lr rr) w
    | KDropped lr, KTransmuted rk rv rr => new_s rk rv (rd lr rr) w
    | KDropped lr, KDropped rr => Ret (HNZ (rd lr rr), w)
    end.

(** lnode.rs:625-657. *)
Fixpoint hmm_l_impl (this : dlist K V) (rights : list (L * W)) (w : heap) : outcome ((hnres R * list (L * W)) * heap) :=
  let* (p, w) :=
    match this with
    | DLL _ _ _ n _ => hmm_l_impl n rights w
    | DLS _ _ _ s _ =>
        match take_key (fst (ds_entry s)) rights with
        | Some (e, rights) => let* (t, w) := hmm_values (ds_entry s) e w in Ret ((t, rights), w)
        | None => let* (t, w) := hs_transmute lop s w in Ret ((t, rights), w)
        end
    end in
  let (next, rights) := (p : hnres R * list (L * W)) in
  let (result, rights) :=
    match take_key (fst (dl_entry this)) rights with
    | Some (e, rights) => (mcall both (dl_entry this, e), rights)
    | None => (mcall lop (dl_entry this), rights)
    end in
  let* (t, w) := hl_transmute_result rd result next w in
  Ret ((t, rights), w).

(** lnode.rs:582-594. *)
Fixpoint hmm_rest (rights : list (L * W)) (next : hnres R) (w : heap) : outcome (hnres R * heap) :=
  match rights with
  | [] => Ret (next, w)
  | e :: rights =>
      let* (next, w) :=
        match mcall rop e with
        | KTransmuted rk rv rr => hn_cons rk rv next (rd rr (hnred next)) w
        | KDropped rr => Ret (hn_with next (rd rr (hnred next)), w)
        end in
      hmm_rest rights next w
  end.

(** lnode.rs:541-623. *)
Definition hmm_lnode (this : dlist K V) (right : dlist L W) (depth : N) (w : heap) : outcome (hnres R * heap) :=
  if hashk (fst (dl_entry this)) =? hashk (fst (dl_entry right)) then
    let* rights := hrights_loop fuel right right [dl_entry right] in
    let* (p, w) := hmm_l_impl this rights w in
    let (next, rights) := (p : hnres R * list (L * W)) in
    hmm_rest rights next w
  else hmm_apart (DNL this) (DNL right) depth w.

(** lnode.rs:936-970. *)
Fixpoint hmm_ls_impl (this : dlist K V) (right : dleaf L W) (w : heap) : outcome (hnres R * heap) :=
  if keqb (fst (dl_entry this)) (fst (ds_entry right)) then
    let* (next, w) := hn_transmute rd lop (dl_next this) w in
    hl_transmute_result rd (mcall both (dl_entry this, ds_entry right)) next w
  else
    let* (next, w) :=
      match this with
      | DLL _ _ _ n _ => hmm_ls_impl n right w
      | DLS _ _ _ s _ => hmm_values (ds_entry s) (ds_entry right) w
      end in
    hl_transmute_result rd (mcall lop (dl_entry this)) next w.

(** lnode.rs:887-934. *)
Definition hmm_lsnode (this : dlist K V) (right : dleaf L W) (depth : N) (w : heap) : outcome (hnres R * heap) :=
  if hashk (fst (dl_entry this)) =? hashk (fst (ds_entry right)) then hmm_ls_impl this right w
  else hmm_apart (DNL this) (DNS right) depth w.

(** snode.rs:427-470. *)
Definition hmm_snode (this : dleaf K V) (right : dleaf L W) (depth : N) (w : heap) : outcome (hnres R * heap) :=
  if hashk (fst (ds_entry this)) =? hashk (fst (ds_entry right)) then hmm_values (ds_entry this) (ds_entry right) w
  else hmm_apart (DNS this) (DNS right) depth w.

(** cnode.rs:807-827, :1198-1215, :1583-1600. *)
Definition hmm_add (a : hacc R) (index : N) (ol : option (dnode K V)) (or : option (dnode L W))
  (n : hnres R) (w : heap) : outcome (hacc R) := hpush_new rd w a index n.

End MM.

(** * transform_with_transformed: both maps are in the heap written to *)
Section TT.
Context {E : Env} {K V R : Type} {KK : Key K} {NZ : Noise K V}.
Context (rdef : R) (rd : R -> R -> R).
Context (both : joint_op (K * V) V R) (lop : transform_op (K * V) V R) (rop : transform_op (K * V) V R).
Notation heap := (heap K V).

(** snode.rs:170-193, lnode.rs:351-383, :677-703. *)
Definition htt_apart (this right : dnext K V) (depth : N) (w : heap) : outcome (hjres R * heap) :=
  let* (l, w) := hn_transform rd lop this w in
  let* (r, w) := hn_transform rd rop right w in
  let* (lf, rf) := two_flags (dn_key this) (dn_key right) depth in
  let z := rd (htred l) (htred r) in
  match htout (hnext_node (dn_next this)) l, htout (hnext_node (dn_next right)) r with
  | Some a, Some b => as_j (hlift a lf b rf z w)
  | Some _, None => Ret (ht_left (ht_with l z), w)
  | None, _ => Ret (ht_right (ht_with r z), w)
  end.

(** snode.rs:196-235. *)
Definition htt_s_impl (this right : dleaf K V) (w : heap) : outcome (hjres R * heap) :=
  let (k, v) := ds_entry this in
  let (rk, rv0) := ds_entry right in
  if keqb k rk then
    match jcall both (k, v) (rk, rv0) with
    | BUnchangedLR r => Ret (HJLR r, w)
    | BUnchangedL r => Ret (HJL r, w)
    | BUnchangedR r => Ret (HJR r, w)
    | BTransformed v r => as_j (new_s k v r w)
    | BDropped r => Ret (HJN (HNZ r), w)
    end
  else
    match tcall lop (k, v), tcall rop (rk, rv0) with
    | VUnchanged lr, VUnchanged rr => as_j (new_l rk rv0 (XS (ds_addr this)) (rd lr rr) w)
    | VUnchanged lr, VTransformed rv rr => as_j (new_l rk rv (XS (ds_addr this)) (rd lr rr) w)
    | VUnchanged lr, VDropped rr => Ret (HJL (rd lr rr), w)
    | VTransformed lv lr, VUnchanged rr => as_j (new_l k lv (XS (ds_addr right)) (rd lr rr) w)
    | VTransformed lv lr, VTransformed rv rr =>
        let (s, w) := hs_new w k lv in as_j (new_l rk rv (XS s) (rd lr rr) w)
    | VTransformed lv lr, VDropped rr => as_j (new_s k lv (rd lr rr) w)
    | VDropped lr, VUnchanged rr => Ret (HJR (rd lr rr), w)
    | VDropped lr, VTransformed rv rr => as_j (new_s rk rv (rd lr rr) w)
    | VDropped lr, VDropped rr => Ret (HJN (HNZ (rd lr rr)), w)
    end.

(** A list node in front of a new leaf: lnode.rs:990, :996, :1004. *)
Definition new_ls (k : K) (v : V) (e : K * V) (r : R) (w : heap) : outcome (hnres R * heap) :=
  let (s, w) := hs_new w (fst e) (snd e) in new_l k v (XS s) r w.

(** lnode.rs:972-1018. *)
Definition hjj (this : dlist K V) (result : bres V R) (that : option (K * V)) (next : hjres R) (w : heap) : outcome (hjres R * heap) :=
  let (k, v) := dl_entry this in
  let tail := dn_next (dl_next this) in
  match result with
  | BUnchangedLR lr =>
      let z := rd lr (hjred next) in
      match next with
      | HJLR _ => Ret (HJLR z, w) | HJL _ => Ret (HJL z, w) | HJR _ => Ret (HJR z, w)
      | HJN n => as_j (hn_cons k v n z w)
      end
  | BUnchangedL lr =>
      let z := rd lr (hjred next) in
      match next with
      | HJLR _ | HJL _ => Ret (HJL z, w)
      | HJR _ => let* e := unwrap that in as_j (new_ls k v e z w)
      | HJN n => as_j (hn_cons k v n z w)
      end
  | BUnchangedR lr =>
      let z := rd lr (hjred next) in
      match next with
      | HJLR _ | HJR _ => let* e := unwrap that in as_j (new_ls k v e z w)
      | HJL _ => let* e := unwrap that in as_j (new_l (fst e) (snd e) tail z w)
      | HJN (HNZ _) => Ret (HJR z, w)
      | HJN n => let* e := unwrap that in as_j (hn_cons (fst e) (snd e) n z w)
      end
  | BTransformed lv lr =>
      let z := rd lr (hjred next) in
      match next with
      | HJLR _ | HJL _ => as_j (new_l k lv tail z w)
      | HJR _ => let* e := unwrap that in as_j (new_ls k v e z w)
      | HJN n => as_j (hn_cons k lv n z w)
      end
  | BDropped lr =>
      let z := rd lr (hjred next) in
      match next with
      | HJLR _ | HJL _ => Ret (HJN (hnext_nres tail z), w)
      | HJR _ => let* e := unwrap that in as_j (new_s (fst e) (snd e) z w)
      | HJN n => Ret (HJN (hn_with n z), w)
      end
  end.

(** lnode.rs:1020-1054. *)
Definition hjt (this : dlist K V) (result : bres V R) (that : dleaf K V) (next : htres R) (w : heap) : outcome (hjres R * heap) :=
  let (k, v) := dl_entry this in
  let tail := dn_next (dl_next this) in
  match result with
  | BUnchangedLR lr | BUnchangedL lr =>
      let z := rd lr (htred next) in
      match next with
      | HTU _ => Ret (HJL z, w)
      | HTN n => as_j (hn_cons k v n z w)
      end
  | BUnchangedR lr =>
      let z := rd lr (htred next) in
      match next with
      | HTU _ => as_j (new_l (fst (ds_entry that)) (snd (ds_entry that)) tail z w)
      | HTN (HNZ _) => Ret (HJR z, w)
      | HTN n => as_j (hn_cons (fst (ds_entry that)) (snd (ds_entry that)) n z w)
      end
  | BTransformed lv lr =>
      let z := rd lr (htred next) in
      match next with
      | HTU _ => as_j (new_l k lv tail z w)
      | HTN n => as_j (hn_cons k lv n z w)
      end
  | BDropped lr =>
      let z := rd lr (htred next) in
      match next with
      | HTU _ => Ret (HJN (hnext_nres tail z), w)
      | HTN n => Ret (HJN (hn_with n z), w)
      end
  end.

(** lnode.rs:1086-1117. *)
Definition htj (this : dlist K V) (result : vres V R) (that : dleaf K V) (next : hjres R) (w : heap) : outcome (hjres R * heap) :=
  let (k, v) := dl_entry this in
  let tail := dn_next (dl_next this) in
  match result with
  | VUnchanged lr =>
      let z := rd lr (hjred next) in
      match next with
      | HJLR _ | HJL _ => Ret (HJL z, w)
      | HJR _ => as_j (new_l (fst (ds_entry that)) (snd (ds_entry that)) (XL (dl_addr this)) z w)
      | HJN n => as_j (hn_cons k v n z w)
      end
  | VTransformed lv lr =>
      let z := rd lr (hjred next) in
      match next with
      | HJLR _ | HJL _ => as_j (new_l k lv tail z w)
      | HJR _ => as_j (new_l k lv (XS (ds_addr that)) z w)
      | HJN n => as_j (hn_cons k lv n z w)
      end
  | VDropped lr =>
      let z := rd lr (hjred next) in
      match next with
      | HJLR _ | HJL _ => Ret (HJN (hnext_nres tail z), w)
      | HJR _ => Ret (HJR z, w)
      | HJN n => Ret (HJN (hn_with n z), w)
      end
  end.

(** lnode.rs:386-423; the matching entry of the right list goes into a leaf of
    its own, allocated for the call (:407). *)
Fixpoint htt_l_impl (this : dlist K V) (rights : list (K * V)) (w : heap) : outcome ((hjres R * list (K * V)) * heap) :=
  let* (q, w) :=
    match this with
    | DLL _ _ _ n _ => let* (nr, w) := htt_l_impl n rights w in Ret ((nr, None), w)
    | DLS _ _ _ s _ =>
        match take_key (fst (ds_entry s)) rights with
        | Some (e, rights) =>
            let (b, w) := hs_new w (fst e) (snd e) in
            let* (t, w) := htt_s_impl s (DSN b (fst e) (snd e)) w in
            Ret (((t, rights), Some e), w)
        | None => let* (t, w) := hs_transform lop s w in Ret (((ht_left t, rights), None), w)
        end
    end in
  let '((next, rights), that) := (q : (hjres R * list (K * V)) * option (K * V)) in
  let (result, rights) :=
    match take_key (fst (dl_entry this)) rights with
    | Some (e, rights) => (jcall both (dl_entry this) e, rights)
    | None => (v_left (tcall lop (dl_entry this)), rights)
    end in
  let* (t, w) := hjj this result that next w in
  Ret ((t, rights), w).

(** lnode.rs:323-345. *)
Fixpoint htt_rest (this : dlist K V) (rights : list (K * V)) (next : hjres R) (w : heap) : outcome (hjres R * heap) :=
  match rights with
  | [] => Ret (next, w)
  | e :: rights =>
      let* (next, w) :=
        match tcall rop e, next with
        | _, HJR _ => Panic
        | VUnchanged rr, HJN n => as_j (hn_cons (fst e) (snd e) n (rd rr (hnred n)) w)
        | VUnchanged rr, HJLR rn | VUnchanged rr, HJL rn => as_j (new_l (fst e) (snd e) (XL (dl_addr this)) (rd rr rn) w)
        | VTransformed rv rr, HJN n => as_j (hn_cons (fst e) rv n (rd rr (hnred n)) w)
        | VTransformed rv rr, HJLR rn | VTransformed rv rr, HJL rn => as_j (new_l (fst e) rv (XL (dl_addr this)) (rd rr rn) w)
        | VDropped rr, HJN n => Ret (HJN (hn_with n (rd rr (hnred n))), w)
        | VDropped rr, HJLR rn | VDropped rr, HJL rn => Ret (HJL (rd rr rn), w)
        end in
      htt_rest this rights next w
  end.

(** lnode.rs:292-384. *)
Definition htt_lnode (this right : dlist K V) (depth : N) (w : heap) : outcome (hjres R * heap) :=
  if hashk (fst (dl_entry this)) =? hashk (fst (dl_entry right)) then
    let* rights := hrights_loop fuel right right [dl_entry right] in
    let* (p, w) := htt_l_impl this rights w in
    let (next, rights) := (p : hjres R * list (K * V)) in
    htt_rest this rights next w
  else htt_apart (DNL this) (DNL right) depth w.

(** lnode.rs:706-730. *)
Fixpoint htt_ls_impl (this : dlist K V) (right : dleaf K V) (w : heap) : outcome (hjres R * heap) :=
  if keqb (fst (dl_entry this)) (fst (ds_entry right)) then
    let* (next, w) := hn_transform rd lop (dl_next this) w in
    hjt this (jcall both (dl_entry this) (ds_entry right)) right next w
  else
    let* (next, w) :=
      match this with
      | DLL _ _ _ n _ => htt_ls_impl n right w
      | DLS _ _ _ s _ => htt_s_impl s right w
      end in
    htj this (tcall lop (dl_entry this)) right next w.

(** lnode.rs:659-704. *)
Definition htt_lsnode (this : dlist K V) (right : dleaf K V) (depth : N) (w : heap) : outcome (hjres R * heap) :=
  if hashk (fst (dl_entry this)) =? hashk (fst (ds_entry right)) then htt_ls_impl this right w
  else htt_apart (DNL this) (DNS right) depth w.

(** snode.rs:154-194. *)
Definition htt_snode (this right : dleaf K V) (depth : N) (w : heap) : outcome (hjres R * heap) :=
  if hashk (fst (ds_entry this)) =? hashk (fst (ds_entry right)) then htt_s_impl this right w
  else htt_apart (DNS this) (DNS right) depth w.

(** cnode.rs:530-580, :893-941, :1280-1328. *)
Definition htt_add (a : hacc R) (index : N) (ol or : option (dnode K V)) (t : hjres R) (w : heap) : outcome (hacc R) :=
  match t with
  | HJLR r => let* l := unwrap ol in hpush rd a index (d_node l) (d_size l) r
  | HJL r => let* l := unwrap ol in let* a := hpush rd a index (d_node l) (d_size l) r in Ret (hset_ur a)
  | HJR r => let* n := unwrap or in let* a := hpush rd a index (d_node n) (d_size n) r in Ret (hset_ul a)
  | HJN n => let* a := hpush_new rd w a index n in Ret (hset_ur (hset_ul a))
  end.

(** cnode.rs:457-477, :944-964, :1331-1351. *)
Definition htt_done (a : hacc R) (w : heap) : outcome (hjres R * heap) :=
  if ha_ul a then if ha_ur a then Ret (HJLR (ha_red a), w) else Ret (HJL (ha_red a), w)
  else if ha_ur a then Ret (HJR (ha_red a), w)
  else as_j (hfinish a w).

(** cnode.rs:380-430. *)
Definition htt_short : option (hjres R) :=
  match both, lop, rop with
  | JUnchangedLR r, TUnchanged _, TRemoved _ => Some (HJL r)
  | JUnchangedLR r, TRemoved _, TUnchanged _ => Some (HJR r)
  | JUnchangedL r, TUnchanged _, TRemoved _ => Some (HJL r)
  | JUnchangedR r, TRemoved _, TUnchanged _ => Some (HJR r)
  | JRemoved r, TRemoved _, TRemoved _ => Some (HJN (HNZ r))
  | _, _, _ => None
  end.

End TT.

(** A joint result with the sides exchanged. *)
Definition as_flip {S X R} (o : outcome (hjres R * heap S X)) : outcome (hjres R * heap S X) :=
  let* (t, w) := o in Ret (hjres_flip t, w).

(** * The families *)
Section TMFamily.
Context {E : Env} {K V L W R : Type} {KK : Key K} {KL : Key L} {NZ : Noise K V}.
Context (rdef : R) (rd : R -> R -> R) (st : strategy).
Context (both : transform_op ((K * V) * (L * W)) V R) (lop : transform_op (K * V) V R)
  (rop : transmute_op (L * W) K V R).
Notation heap := (heap K V).

(** snode.rs:115-133, lnode.rs:224-243, mnode.rs:196-216, :280-300. *)
Definition htm_leaf (this : dnext K V) (right : dnext L W) (depth : N) (w : heap) : outcome (htres R * heap) :=
  match this, right with
  | DNL l, DNL r => htm_lnode rd both lop rop l r depth w
  | DNL l, DNS r => htm_lsnode rd both lop rop l r depth w
  | DNS s, DNL r => hmt_lsnode rd (tflip both) rop lop r s depth w
  | DNS s, DNS r => htm_snode rd both lop rop s r depth w
  end.

Definition htm_lone (n : dnode K V) (w : heap) : outcome (htres R * heap) := h_transform rdef rd st lop n w.
Definition htm_rone (n : dnode L W) (w : heap) : outcome (htres R * heap) := as_t (h_transmute rdef rd rop n w).

(** cnode.rs:968-1060, :1355-1446. *)
Definition htm_tree_leaf (right : dnext L W) : dnode K V -> N -> heap -> outcome (htres R * heap) :=
  h_leaf rdef (htm_add rd (match right with DNL _ => false | DNS _ => true end)) htm_lone htm_rone htm_done htm_leaf right.

End TMFamily.

Section MTFamily.
Context {E : Env} {K V L W R : Type} {KK : Key K} {KL : Key L} {NZ : Noise L W}.
Context (rdef : R) (rd : R -> R -> R) (st : strategy).
Context (both : transform_op ((K * V) * (L * W)) W R) (lop : transmute_op (K * V) L W R)
  (rop : transform_op (L * W) W R).
Notation heap := (heap L W).

(** snode.rs:135-152, lnode.rs:245-264, mnode.rs:218-237, :302-321. *)
Definition hmt_leaf (this : dnext K V) (right : dnext L W) (depth : N) (w : heap) : outcome (htres R * heap) :=
  match this, right with
  | DNL l, DNL r => htm_lnode rd (tflip both) rop lop r l depth w
  | DNL l, DNS r => hmt_lsnode rd both lop rop l r depth w
  | DNS s, DNL r => htm_lsnode rd (tflip both) rop lop r s depth w
  | DNS s, DNS r => hmt_snode rd both lop rop s r depth w
  end.

Definition hmt_lone (n : dnode K V) (w : heap) : outcome (htres R * heap) := as_t (h_transmute rdef rd lop n w).
Definition hmt_rone (n : dnode L W) (w : heap) : outcome (htres R * heap) := h_transform rdef rd st rop n w.

(** cnode.rs:1062-1150, :1448-1535. *)
Definition hmt_tree_leaf (right : dnext L W) : dnode K V -> N -> heap -> outcome (htres R * heap) :=
  h_leaf rdef (hmt_add rd (match right with DNL _ => false | DNS _ => true end)) hmt_lone hmt_rone hmt_done hmt_leaf right.

End MTFamily.

Section MMFamily.
Context {E : Env} {K V L W S X R : Type} {KK : Key K} {KL : Key L} {NZ : Noise S X}.
Context (rdef : R) (rd : R -> R -> R).
Context (both : transmute_op ((K * V) * (L * W)) S X R) (lop : transmute_op (K * V) S X R)
  (rop : transmute_op (L * W) S X R).
Notation heap := (heap S X).

(** snode.rs:401-425, lnode.rs:266-290, mnode.rs:239-259, :323-343. *)
Definition hmm_leaf (this : dnext K V) (right : dnext L W) (depth : N) (w : heap) : outcome (hnres R * heap) :=
  match this, right with
  | DNL l, DNL r => hmm_lnode rd both lop rop l r depth w
  | DNL l, DNS r => hmm_lsnode rd both lop rop l r depth w
  | DNS s, DNL r => hmm_lsnode rd (mflip both) rop lop r s depth w
  | DNS s, DNS r => hmm_snode rd both lop rop s r depth w
  end.

(** cnode.rs:1152-1228, :1537-1613. *)
Definition hmm_tree_leaf (right : dnext L W) : dnode K V -> N -> heap -> outcome (hnres R * heap) :=
  h_leaf rdef (hmm_add rd) (h_transmute rdef rd lop) (h_transmute rdef rd rop) hfinish hmm_leaf right.

End MMFamily.

Section TTFamily.
Context {E : Env} {K V R : Type} {KK : Key K} {NZ : Noise K V}.
Context (rdef : R) (rd : R -> R -> R) (st : strategy).
Notation heap := (heap K V).

(** snode.rs:96-111, lnode.rs:208-222, mnode.rs:177-193, :261-277. *)
Definition htt_leaf (both : joint_op (K * V) V R) (lop rop : transform_op (K * V) V R) (this right : dnext K V) (depth : N) (w : heap)
  : outcome (hjres R * heap) :=
  match this, right with
  | DNL l, DNL r => htt_lnode rd both lop rop l r depth w
  | DNL l, DNS r => htt_lsnode rd both lop rop l r depth w
  | DNS s, DNL r => as_flip (htt_lsnode rd (jflip both) rop lop r s depth w)
  | DNS s, DNS r => htt_snode rd both lop rop s r depth w
  end.

(** cnode.rs:505-512, :517-524, :872-880, :884-889, :1260-1268, :1272-1276. *)
Definition htt_lone (lop : transform_op (K * V) V R) (n : dnode K V) (w : heap) : outcome (hjres R * heap) :=
  let* (t, w) := h_transform rdef rd st lop n w in Ret (ht_left t, w).
Definition htt_rone (rop : transform_op (K * V) V R) (n : dnode K V) (w : heap) : outcome (hjres R * heap) :=
  let* (t, w) := h_transform rdef rd st rop n w in Ret (ht_right t, w).

(** cnode.rs:842-966, :1230-1353. *)
Definition htt_tree_leaf (both : joint_op (K * V) V R) (lop rop : transform_op (K * V) V R) (right : dnext K V)
  : dnode K V -> N -> heap -> outcome (hjres R * heap) :=
  h_leaf rdef (htt_add rd) (htt_lone lop) (htt_rone rop) htt_done (htt_leaf both lop rop) right.

(** snode.rs:106, lnode.rs:218. *)
Definition htt_leaf_tree (both : joint_op (K * V) V R) (lop rop : transform_op (K * V) V R) (this : dnext K V) (right : dnode K V)
  (depth : N) (w : heap) : outcome (hjres R * heap) :=
  as_flip (htt_tree_leaf (jflip both) rop lop this right depth w).

End TTFamily.

Section Joint.
Context {E : Env} {K V L W R : Type} {KK : Key K} {KL : Key L}.
Context (rdef : R) (rd : R -> R -> R) (st : strategy).

(** mnode.rs:112-133, cnode.rs:585-673, snode.rs:118, lnode.rs:228. *)
Definition h_tm {NZ : Noise K V} (both : transform_op ((K * V) * (L * W)) V R) (lop : transform_op (K * V) V R)
  (rop : transmute_op (L * W) K V R) : dnode K V -> dnode L W -> N -> heap K V -> outcome (htres R * heap K V) :=
  h_joint rdef rd (htm_add rd true) (htm_lone rdef rd st lop) (htm_rone rdef rd rop) htm_done
    (htm_leaf rd both lop rop) (htm_tree_leaf rdef rd st both lop rop)
    (hmt_tree_leaf rdef rd st (tflip both) rop lop) None Sequential.

(** mnode.rs:135-154, cnode.rs:675-764, snode.rs:138, lnode.rs:249. *)
Definition h_mt {NZ : Noise L W} (both : transform_op ((K * V) * (L * W)) W R) (lop : transmute_op (K * V) L W R)
  (rop : transform_op (L * W) W R) : dnode K V -> dnode L W -> N -> heap L W -> outcome (htres R * heap L W) :=
  h_joint rdef rd (hmt_add rd true) (hmt_lone rdef rd lop) (hmt_rone rdef rd st rop) hmt_done
    (hmt_leaf rd both lop rop) (hmt_tree_leaf rdef rd st both lop rop)
    (htm_tree_leaf rdef rd st (tflip both) rop lop) None Sequential.

(** mnode.rs:156-175, cnode.rs:766-840, snode.rs:416, lnode.rs:281. *)
Definition h_mm {S X} {NZ : Noise S X} (both : transmute_op ((K * V) * (L * W)) S X R) (lop : transmute_op (K * V) S X R)
  (rop : transmute_op (L * W) S X R) : dnode K V -> dnode L W -> N -> heap S X -> outcome (hnres R * heap S X) :=
  h_joint rdef rd (hmm_add rd) (h_transmute rdef rd lop) (h_transmute rdef rd rop) hfinish
    (hmm_leaf rd both lop rop) (hmm_tree_leaf rdef rd both lop rop)
    (hmm_tree_leaf rdef rd (mflip both) rop lop) None Sequential.

(** mnode.rs:93-109, cnode.rs:285-301, :371-583. *)
Definition h_tt {NZ : Noise K V} (both : joint_op (K * V) V R) (lop rop : transform_op (K * V) V R)
  : dnode K V -> dnode K V -> N -> heap K V -> outcome (hjres R * heap K V) :=
  h_joint rdef rd (htt_add rd) (htt_lone rdef rd st lop) (htt_rone rdef rd st rop) htt_done
    (htt_leaf rd both lop rop) (htt_tree_leaf rdef rd st both lop rop) (htt_leaf_tree rdef rd st both lop rop)
    (htt_short both lop rop) st.

End Joint.

(** * The public operations *)
Section Api.
Context {E : Env} {R : Type}.
Context (rdef : R) (rd : R -> R -> R).

(** hash_trie.rs:65-80: the root of the result; a fresh empty branch when
    nothing is left. *)
Definition hnres_root {K V} {NZ : Noise K V} (n : hnres R) (w : heap K V) : hnode * R * heap K V :=
  match n with
  | HNN x r => (x, r, w)
  | HNZ r => let (x, w) := hm_new w in (x, r, w)
  end.

(** hash_trie.rs:65-80, map.rs:115-125. *)
Definition hm_transform {K V} {NZ : Noise K V} (st : strategy) (op : transform_op (K * V) V R) (h : heap K V) (m : hnode)
  : outcome (hnode * R * heap K V) :=
  let* d := h_deref (enough h) h m in
  let* (t, w) := h_transform rdef rd st op d h in
  match t with
  | HTU r => Ret (m, r, w)
  | HTN n => Ret (hnres_root n w)
  end.

(** hash_trie.rs:82-99, map.rs:128-141: [w] is where the new map goes. *)
Definition hm_transmute {K V S X} {NZ : Noise S X} (op : transmute_op (K * V) S X R) (h : heap K V) (m : hnode) (w : heap S X)
  : outcome (hnode * R * heap S X) :=
  let* d := h_deref (enough h) h m in
  let* (n, w) := h_transmute rdef rd op d w in
  Ret (hnres_root n w).

(** hash_trie.rs:101-119, map.rs:144-156. *)
Definition hm_tt {K V} {KK : Key K} {NZ : Noise K V} (st : strategy) (both : joint_op (K * V) V R) (lop rop : transform_op (K * V) V R)
  (h : heap K V) (m right : hnode) : outcome (hnode * R * heap K V) :=
  let* d := h_deref (enough h) h m in
  let* d' := h_deref (enough h) h right in
  let* (t, w) := h_tt rdef rd st both lop rop d d' 0 h in
  match t with
  | HJLR r | HJL r => Ret (m, r, w)
  | HJR r => Ret (right, r, w)
  | HJN n => Ret (hnres_root n w)
  end.

(** hash_trie.rs:121-143, map.rs:182-199. *)
Definition hm_tm {K V L W} {KK : Key K} {KL : Key L} {NZ : Noise K V} (st : strategy) (both : transform_op ((K * V) * (L * W)) V R)
  (lop : transform_op (K * V) V R) (rop : transmute_op (L * W) K V R) (h : heap K V) (m : hnode) (hr : heap L W) (right : hnode)
  : outcome (hnode * R * heap K V) :=
  let* d := h_deref (enough h) h m in
  let* d' := h_deref (enough hr) hr right in
  let* (t, w) := h_tm rdef rd st both lop rop d d' 0 h in
  match t with
  | HTU r => Ret (m, r, w)
  | HTN n => Ret (hnres_root n w)
  end.

(** hash_trie.rs:145-167, map.rs:225-242. *)
Definition hm_mt {K V L W} {KK : Key K} {KL : Key L} {NZ : Noise L W} (st : strategy) (both : transform_op ((K * V) * (L * W)) W R)
  (lop : transmute_op (K * V) L W R) (rop : transform_op (L * W) W R) (h : heap K V) (m : hnode) (hr : heap L W) (right : hnode)
  : outcome (hnode * R * heap L W) :=
  let* d := h_deref (enough h) h m in
  let* d' := h_deref (enough hr) hr right in
  let* (t, w) := h_mt rdef rd st both lop rop d d' 0 hr in
  match t with
  | HTU r => Ret (right, r, w)
  | HTN n => Ret (hnres_root n w)
  end.

(** hash_trie.rs:169-195, map.rs:245-265. *)
Definition hm_mm {K V L W S X} {KK : Key K} {KL : Key L} {NZ : Noise S X} (both : transmute_op ((K * V) * (L * W)) S X R)
  (lop : transmute_op (K * V) S X R) (rop : transmute_op (L * W) S X R) (h : heap K V) (m : hnode) (hr : heap L W) (right : hnode)
  (w : heap S X) : outcome (hnode * R * heap S X) :=
  let* d := h_deref (enough h) h m in
  let* d' := h_deref (enough hr) hr right in
  let* (n, w) := h_mm rdef rd both lop rop d d' 0 w in
  Ret (hnres_root n w).

End Api.
