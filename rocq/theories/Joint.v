(** Joint operations on two maps: the traversals shared by all four families,
    and transform_with_transmuted, transmute_with_transformed and
    transmute_with_transmuted (src/node/snode.rs, lnode.rs, cnode.rs, mnode.rs,
    src/hash_trie.rs, src/map.rs).  transform_with_transformed is in JointT.v.

    The sixteen CNode traversals of cnode.rs:371-1613 repeat two loops: branch
    against branch, and branch against leaf.  They differ in the operations
    they call and in how they record a result; those are parameters here. *)
From Coq Require Import NArith List Bool.
From Verif Require Import Base Words Flag Bia Node Api Trans Transform.
Import ListNotations.
Open Scope N_scope.

(** * The traversals *)
Section Traverse.
Context {E : Env} {K V L W S X R T : Type} {KL : Key L}.
Context (rdef : R) (rd : R -> R -> R).
(** How to record the result of a slot. *)
Context (add : acc S X R -> N -> option (mnode K V) -> option (mnode L W) -> T -> outcome (acc S X R)).
(** What happens to a child found on one side only, and at the end. *)
Context (lone : mnode K V -> outcome T) (rone : mnode L W -> outcome T) (done : acc S X R -> outcome T).

(** Loop body of branch against branch: cnode.rs:495-582 (transformed),
    :608-653 (transform/transmuted), :695-742 (transmute/transformed), :791-827
    (transmuted).  [self] holds each child with its joint operation. *)
Definition cc_step (self : bia (mnode K V * (mnode L W -> outcome T))) (right : bia (mnode L W))
  (a : acc S X R) (index : N) : outcome (acc S X R) :=
  let* ol := bat_bit_index fw self index in
  let* or := bat_bit_index fw right index in
  match ol, or with
  | Ok (l, both), Ok r => let* t := both r in add a index (Some l) (Some r) t
  | Ok (l, _), Err _ => let* t := lone l in add a index (Some l) None t
  | Err _, Ok r => let* t := rone r in add a index None (Some r) t
  | Err _, Err _ => Ret a
  end.

(** Loop body of branch against collision list or leaf [right]:
    cnode.rs:862-941, :993-1037, :1084-1132, :1182-1215 (collision list), :1250-1327,
    :1380-1423, :1470-1513, :1567-1600 (leaf). *)
Definition cl_step (flag : N) (right : mnode L W) (depth : N) (self : bia (mnode K V * (N -> outcome T)))
  (a : acc S X R) (index : N) : outcome (acc S X R) :=
  let* ol := bat_bit_index fw self index in
  let* bit := unwrap_ok (nth_bit fw index) in
  match ol with
  | Ok (l, both) =>
      if flag =? bit then let* t := both (depth + 1) in add a index (Some l) (Some right) t
      else let* t := lone l in add a index (Some l) (Some right) t
  | Err _ =>
      if flag =? bit then let* t := rone right in add a index None (Some right) t
      else Ret a
  end.

(** Two collision lists or leaves. *)
Context (leaf : lnext K V -> lnext L W -> N -> outcome T).

(** mnode.rs:177-343, the twelve [*_lnode] and [*_snode] dispatchers: a node
    against a collision list or leaf; the branch case is cnode.rs:842-1613. *)
Fixpoint m_leaf (right : lnext L W) (n : mnode K V) (depth : N) {struct n} : outcome T :=
  match n with
  | MC (BIA bits values extra) =>
      let* flag := flag_new_at_depth (hashk (next_key right)) depth in
      let* flag := unwrap flag in
      let* a := loop (cl_step (fl_flag flag) (next_mnode right) depth
                        (BIA bits (map (fun c => (c, m_leaf right c)) values) extra))
                  (range 0 (max_ones fw)) (acc0 rdef) in
      done a
  | ML l => leaf (NL l) right depth
  | MS s => leaf (NS s) right depth
  end.

(** A node against a collision list or leaf, and the mirrored case of a
    collision list or leaf against a branch. *)
Context (tree_leaf : lnext L W -> mnode K V -> N -> outcome T).
Context (leaf_tree : lnext K V -> mnode L W -> N -> outcome T).
(** The early returns of cnode.rs:380-430, and the strategy. *)
Context (short : option T) (st : strategy).

(** mnode.rs:93-175 with cnode.rs:285-369 and the first functions of lnode.rs
    and snode.rs: dispatch on both nodes; branch against branch is
    cnode.rs:371-840. *)
Fixpoint m_joint (n : mnode K V) (right : mnode L W) (depth : N) {struct n} : outcome T :=
  match n with
  | MC (BIA bits values extra) =>
      match right with
      | MC rb =>
          match short with
          | Some t => Ret t
          | None =>
              let* a := run_loop rdef rd st
                          (cc_step (BIA bits (map (fun c => (c, fun r => m_joint c r (depth + 1))) values) extra) rb) in
              done a
          end
      | ML r => tree_leaf (NL r) n depth
      | MS r => tree_leaf (NS r) n depth
      end
  | ML l =>
      match right with
      | MC _ => leaf_tree (NL l) right depth
      | ML r => leaf (NL l) (NL r) depth
      | MS r => leaf (NL l) (NS r) depth
      end
  | MS s =>
      match right with
      | MC _ => leaf_tree (NS s) right depth
      | ML r => leaf (NS s) (NL r) depth
      | MS r => leaf (NS s) (NS r) depth
      end
  end.

End Traverse.

(** * Vectors *)

(** [Iterator::position]. *)
Fixpoint position {A} (p : A -> bool) (l : list A) : option nat :=
  match l with
  | [] => None
  | a :: l' => if p a then Some O else option_map Datatypes.S (position p l')
  end.

(** [Vec::swap_remove]: the last element takes the place of the removed one. *)
Definition swap_remove {A} (i : nat) (l : list A) : option (A * list A) :=
  match nth_error l i with
  | Some a => Some (a, removelast (firstn i l ++ last l a :: skipn (Datatypes.S i) l))
  | None => None
  end.

(** [rights.iter().position(|kv| key == kv.0).map(|i| rights.swap_remove(i))],
    e.g. lnode.rs:528. *)
Definition take_key {E : Env} {K L W} {KK : Key K} {KL : Key L} (k : K) (rights : list (L * W))
  : option ((L * W) * list (L * W)) :=
  match position (fun e => keqb k (fst e)) rights with
  | Some i => swap_remove i rights
  | None => None
  end.

(** The loop of lnode.rs:306-319, :444-457, :565-578.  Its cursor [r] is reset
    to [right] instead of advancing. *)
Fixpoint rights_loop {L W} (n : nat) (right r : lnode L W) (rights : list (L * W)) : outcome (list (L * W)) :=
  match n with
  | O => Diverge
  | Datatypes.S n =>
      match l_next r with
      | NL l => rights_loop n right right (rights ++ [(l_key l, l_value l)])
      | NS s => Ret (rights ++ [(s_key s, s_value s)])
      end
  end.

(** * One side: collision lists and leaves together *)
Section Next.
Context {E : Env} {K V R : Type}.
Context (rd : R -> R -> R).

(** lnode.rs:151 and snode.rs:74, [transform]. *)
Definition n_transform (op : transform_op (K * V) V R) (n : lnext K V) : tres K V R :=
  match n with NL l => l_transform rd op l | NS s => s_transform op s end.

(** lnode.rs:178 and snode.rs:86, [transmute]. *)
Definition n_transmute {S X} (op : transmute_op (K * V) S X R) (n : lnext K V) : nres S X R :=
  match n with NL l => l_transmute rd op l | NS s => s_transmute op s end.

(** A result with another reduction. *)
Definition n_with (n : nres K V R) (r : R) : nres K V R :=
  match n with
  | NRC c _ => NRC c r
  | NRL l _ => NRL l r
  | NRS s _ => NRS s r
  | NRZ _ => NRZ r
  end.
Definition t_with (t : tres K V R) (r : R) : tres K V R :=
  match t with TU _ => TU r | TN n => TN (n_with n r) end.

(** Prepending an entry to what a traversal left; [that] is the list that
    [TU] stands for.  Used where lnode.rs writes [LNode::new(k, v, ...)]. *)
Definition n_cons (k : K) (v : V) (n : nres K V R) (r : R) : nres K V R :=
  match n with
  | NRL l _ => NRL (l_new k v (NL l)) r
  | NRS s _ => NRL (l_new k v (NS s)) r
  | NRZ _ => NRS (SN k v) r
  | NRC _ _ => NRZ r   (* never arises *)
  end.
Definition t_cons (that : lnext K V) (k : K) (v : V) (t : tres K V R) (r : R) : tres K V R :=
  match t with
  | TU _ => TN (NRL (l_new k v that) r)
  | TN n => TN (n_cons k v n r)
  end.

End Next.

(** Both flags of two leaves with different hashes, e.g. lnode.rs:484-485. *)
Definition two_flags {E : Env} {K L} {KK : Key K} {KL : Key L} (k : K) (l : L) (depth : N) : outcome (Flag * Flag) :=
  let* lf := flag_new_at_depth (hashk k) depth in
  let* lf := unwrap lf in
  let* rf := flag_new_at_depth (hashk l) depth in
  let* rf := unwrap rf in
  Ret (lf, rf).

(** * transform_with_transmuted *)
Section TM.
Context {E : Env} {K V L W R : Type} {KK : Key K} {KL : Key L}.
Context (rdef : R) (rd : R -> R -> R).
Context (both : transform_op ((K * V) * (L * W)) V R) (lop : transform_op (K * V) V R)
  (rop : transmute_op (L * W) K V R).

(** Leaves with different hashes: snode.rs:257-278, lnode.rs:480-508, :753-777. *)
Definition tm_apart (this : lnext K V) (right : lnext L W) (depth : N) : outcome (tres K V R) :=
  let l := n_transform rd lop this in
  let r := n_transmute rd rop right in
  let* (lf, rf) := two_flags (next_key this) (next_key right) depth in
  let z := rd (tred l) (nred r) in
  match tout (next_mnode this) l, nnode r with
  | Some a, Some b => let* c := cnode_lift a lf b rf in Ret (TN (NRC c z))
  | Some _, None => Ret (t_with l z)
  | None, _ => Ret (TN (n_with r z))
  end.

(** snode.rs:281-319, [transform_with_transmuted_snode_impl]. *)
Definition tm_s_impl (this : snode K V) (right : L * W) : tres K V R :=
  if keqb (s_key this) (fst right) then
    match tcall both ((s_key this, s_value this), right) with
    | VUnchanged r => TU r
    | VTransformed v r => TN (NRS (SN (s_key this) v) r)
    | VDropped r => TN (NRZ r)
    end
  else
    match tcall lop (s_key this, s_value this), mcall rop right with
    | VUnchanged lr, KTransmuted rk rv rr => TN (NRL (l_new rk rv (NS this)) (rd lr rr))
    | VUnchanged lr, KDropped rr => TU (rd lr rr)
    | VTransformed lv lr, KTransmuted rk rv rr => TN (NRL (l_new rk rv (NS (SN (s_key this) lv))) (rd lr rr))
    | VTransformed lv lr, KDropped rr => TN (NRS (SN (s_key this) lv) (rd lr rr))
    | VDropped lr, KTransmuted rk rv rr => TN (NRS (SN rk rv) (rd lr rr))
    | VDropped lr, KDropped rr => TN (NRZ (rd lr rr))
    end.

(** lnode.rs:511-539, [transform_with_transmuted_lnode_impl]; [rights] is
    threaded through as it is mutated. *)
Fixpoint tm_l_impl (this : lnode K V) (rights : list (L * W)) : tres K V R * list (L * W) :=
  let (next, rights) :=
    match this with
    | LNL _ _ n _ => tm_l_impl n rights
    | LNS _ _ s _ =>
        match take_key (s_key s) rights with
        | Some (e, rights) => (tm_s_impl s e, rights)
        | None => (s_transform lop s, rights)
        end
    end in
  let (result, rights) :=
    match take_key (l_key this) rights with
    | Some (e, rights) => (tcall both ((l_key this, l_value this), e), rights)
    | None => (tcall lop (l_key this, l_value this), rights)
    end in
  (l_transform_result rd this result next, rights).

(** lnode.rs:461-475, the loop over the entries left in [rights]. *)
Fixpoint tm_rest (this : lnode K V) (rights : list (L * W)) (next : tres K V R) : tres K V R :=
  match rights with
  | [] => next
  | e :: rights =>
      tm_rest this rights
        (match mcall rop e with
         | KTransmuted rk rv rr => t_cons (NL this) rk rv next (rd rr (tred next))
         | KDropped rr => t_with next (rd rr (tred next))
         end)
  end.

(** lnode.rs:425-509, [transform_with_transmuted_lnode]. *)
Definition tm_lnode (this : lnode K V) (right : lnode L W) (depth : N) : outcome (tres K V R) :=
  if hashk (l_key this) =? hashk (l_key right) then
    let* rights := rights_loop fuel right right [(l_key right, l_value right)] in
    let (next, rights) := tm_l_impl this rights in
    Ret (tm_rest this rights next)
  else tm_apart (NL this) (NL right) depth.

(** lnode.rs:780-808, [transform_with_transmuted_snode_impl];
    transform_with_transformed_result (1056-1084) is transform_result
    (1164-1192) again. *)
Fixpoint tm_ls_impl (this : lnode K V) (right : snode L W) : tres K V R :=
  if keqb (l_key this) (s_key right) then
    l_transform_result rd this (tcall both ((l_key this, l_value this), (s_key right, s_value right)))
      (n_transform rd lop (l_next this))
  else
    l_transform_result rd this (tcall lop (l_key this, l_value this))
      (match this with
       | LNL _ _ n _ => tm_ls_impl n right
       | LNS _ _ s _ => tm_s_impl s (s_key right, s_value right)
       end).

(** lnode.rs:732-778, [transform_with_transmuted_snode]. *)
Definition tm_lsnode (this : lnode K V) (right : snode L W) (depth : N) : outcome (tres K V R) :=
  if hashk (l_key this) =? hashk (s_key right) then Ret (tm_ls_impl this right)
  else tm_apart (NL this) (NS right) depth.

(** snode.rs:237-279, [transform_with_transmuted_snode]. *)
Definition tm_snode (this : snode K V) (right : snode L W) (depth : N) : outcome (tres K V R) :=
  if hashk (s_key this) =? hashk (s_key right) then Ret (tm_s_impl this (s_key right, s_value right))
  else tm_apart (NS this) (NS right) depth.

(** cnode.rs:634-654, :1014-1037 (which clears [unchangedl] in the Unchanged
    case too: [keep] is false), :1401-1423. *)
Definition tm_add (keep : bool) (a : acc K V R) (index : N) (ol : option (mnode K V)) (or : option (mnode L W))
  (t : tres K V R) : outcome (acc K V R) :=
  match t with
  | TU r =>
      let* l := unwrap ol in
      let* a := push rd a index l (m_size l) r in
      Ret (if keep then a else set_ul a)
  | TN n => let* a := push_new rd a index n in Ret (set_ul a)
  end.

(** cnode.rs:656-672, :1040-1056, :1426-1442. *)
Definition tm_done (a : acc K V R) : outcome (tres K V R) :=
  if a_ul a then Ret (TU (a_red a)) else let* n := finish a in Ret (TN n).

End TM.

(** * transmute_with_transformed *)
Section MT.
Context {E : Env} {K V L W R : Type} {KK : Key K} {KL : Key L}.
Context (rdef : R) (rd : R -> R -> R).
Context (both : transform_op ((K * V) * (L * W)) W R) (lop : transmute_op (K * V) L W R)
  (rop : transform_op (L * W) W R).

(** Leaves with different hashes: snode.rs:341-360, lnode.rs:831-854. *)
Definition mt_apart (this : lnext K V) (right : lnext L W) (depth : N) : outcome (tres L W R) :=
  let l := n_transmute rd lop this in
  let r := n_transform rd rop right in
  let* (lf, rf) := two_flags (next_key this) (next_key right) depth in
  let z := rd (nred l) (tred r) in
  match nnode l, tout (next_mnode right) r with
  | Some a, Some b => let* c := cnode_lift a lf b rf in Ret (TN (NRC c z))
  | Some _, None => Ret (TN (n_with l z))
  | None, _ => Ret (t_with r z)
  end.

(** snode.rs:363-399, [transmute_with_transformed_snode_impl]. *)
Definition mt_s_impl (this : snode K V) (right : snode L W) : tres L W R :=
  if keqb (s_key this) (s_key right) then
    match tcall both ((s_key this, s_value this), (s_key right, s_value right)) with
    | VUnchanged r => TU r
    | VTransformed v r => TN (NRS (SN (s_key right) v) r)
    | VDropped r => TN (NRZ r)
    end
  else
    match mcall lop (s_key this, s_value this), tcall rop (s_key right, s_value right) with
    | KTransmuted lk lv lr, VUnchanged rr => TN (NRL (l_new lk lv (NS right)) (rd lr rr))
    | KTransmuted lk lv lr, VTransformed rv rr => TN (NRL (l_new lk lv (NS (SN (s_key right) rv))) (rd lr rr))
    | KTransmuted lk lv lr, VDropped rr => TN (NRS (SN lk lv) (rd lr rr))
    | KDropped lr, VUnchanged rr => TU (rd lr rr)
    | KDropped lr, VTransformed rv rr => TN (NRS (SN (s_key right) rv) (rd lr rr))
    | KDropped lr, VDropped rr => TN (NRZ (rd lr rr))
    end.

(** lnode.rs:1119-1141, [transform_with_transmuted_result]. *)
Definition mt_hit (this : snode L W) (result : vres W R) (next : nres L W R) : nres L W R :=
  match result with
  | VUnchanged lr => n_cons (s_key this) (s_value this) next (rd lr (nred next))
  | VTransformed lv lr => n_cons (s_key this) lv next (rd lr (nred next))
  | VDropped lr => n_with next (rd lr (nred next))
  end.

(** lnode.rs:1143-1162, [transmute_with_transformed_result]. *)
Definition mt_miss (this : snode L W) (result : kres L W R) (next : tres L W R) : tres L W R :=
  match result with
  | KTransmuted lk lv lr => t_cons (NS this) lk lv next (rd lr (tred next))
  | KDropped lr =>
      match next with
      | TU rr => TN (NRS (SN (s_key this) (s_value this)) (rd lr rr))
      | TN n => TN (n_with n (rd lr (nred n)))
      end
  end.

(** lnode.rs:857-885, [transmute_with_transformed_snode_impl]. *)
Fixpoint mt_ls_impl (this : lnode K V) (right : snode L W) : tres L W R :=
  if keqb (l_key this) (s_key right) then
    TN (mt_hit right (tcall both ((l_key this, l_value this), (s_key right, s_value right)))
          (n_transmute rd lop (l_next this)))
  else
    mt_miss right (mcall lop (l_key this, l_value this))
      (match this with
       | LNL _ _ n _ => mt_ls_impl n right
       | LNS _ _ s _ => mt_s_impl s right
       end).

(** lnode.rs:810-855, [transmute_with_transformed_snode]. *)
Definition mt_lsnode (this : lnode K V) (right : snode L W) (depth : N) : outcome (tres L W R) :=
  if hashk (l_key this) =? hashk (s_key right) then Ret (mt_ls_impl this right)
  else mt_apart (NL this) (NS right) depth.

(** snode.rs:321-361, [transmute_with_transformed_snode]. *)
Definition mt_snode (this : snode K V) (right : snode L W) (depth : N) : outcome (tres L W R) :=
  if hashk (s_key this) =? hashk (s_key right) then Ret (mt_s_impl this right)
  else mt_apart (NS this) (NS right) depth.

(** cnode.rs:723-743, :1099-1132 (which clears [unchangedr] in the Unchanged
    case too: [keep] is false), :1486-1513. *)
Definition mt_add (keep : bool) (a : acc L W R) (index : N) (ol : option (mnode K V)) (or : option (mnode L W))
  (t : tres L W R) : outcome (acc L W R) :=
  match t with
  | TU r =>
      let* n := unwrap or in
      let* a := push rd a index n (m_size n) r in
      Ret (if keep then a else set_ur a)
  | TN n => let* a := push_new rd a index n in Ret (set_ur a)
  end.

(** cnode.rs:747-763, :1133-1149, :1518-1534. *)
Definition mt_done (a : acc L W R) : outcome (tres L W R) :=
  if a_ur a then Ret (TU (a_red a)) else let* n := finish a in Ret (TN n).

End MT.

(** * transmute_with_transmuted *)
Section MM.
Context {E : Env} {K V L W S X R : Type} {KK : Key K} {KL : Key L} {KS : Key S}.
Context (rdef : R) (rd : R -> R -> R).
Context (both : transmute_op ((K * V) * (L * W)) S X R) (lop : transmute_op (K * V) S X R)
  (rop : transmute_op (L * W) S X R).

(** Leaves with different hashes: snode.rs:452-469, lnode.rs:599-622, :911-933. *)
Definition mm_apart (this : lnext K V) (right : lnext L W) (depth : N) : outcome (nres S X R) :=
  let l := n_transmute rd lop this in
  let r := n_transmute rd rop right in
  let* (lf, rf) := two_flags (next_key this) (next_key right) depth in
  let z := rd (nred l) (nred r) in
  match nnode l, nnode r with
  | Some a, Some b => let* c := cnode_lift a lf b rf in Ret (NRC c z)
  | Some _, None => Ret (n_with l z)
  | None, _ => Ret (n_with r z)
  end.

(** results.rs, [From<MapTransmuteResult> for LNodeTransmuteResult]. *)
Definition k_nres (r : kres S X R) : nres S X R :=
  match r with
  | KTransmuted k v r => NRS (SN k v) r
  | KDropped r => NRZ r
  end.

(** snode.rs:472-506, [transmute_with_transmuted_values]. *)
Definition mm_values (this : K * V) (right : L * W) : nres S X R :=
  if keqb (fst this) (fst right) then k_nres (mcall both (this, right))
  else
    match mcall lop this, mcall rop right with
    | KTransmuted lk lv lr, KTransmuted rk rv rr => NRL (l_new lk lv (NS (SN rk rv))) (rd lr rr)
    | KTransmuted lk lv lr, KDropped rr => NRS (SN lk lv) (rd lr rr)
    | KDropped lr, KTransmuted rk rv rr => NRS (SN rk rv) (rd lr rr)
    | KDropped lr, KDropped rr => NRZ (rd lr rr)
    end.

(** lnode.rs:625-657, [transmute_with_transmuted_lnode_impl]. *)
Fixpoint mm_l_impl (this : lnode K V) (rights : list (L * W)) : nres S X R * list (L * W) :=
  let (next, rights) :=
    match this with
    | LNL _ _ n _ => mm_l_impl n rights
    | LNS _ _ s _ =>
        match take_key (s_key s) rights with
        | Some (e, rights) => (mm_values (s_key s, s_value s) e, rights)
        | None => (s_transmute lop s, rights)
        end
    end in
  let (result, rights) :=
    match take_key (l_key this) rights with
    | Some (e, rights) => (mcall both ((l_key this, l_value this), e), rights)
    | None => (mcall lop (l_key this, l_value this), rights)
    end in
  (l_transmute_result rd result next, rights).

(** lnode.rs:582-594, the loop over the entries left in [rights]. *)
Fixpoint mm_rest (rights : list (L * W)) (next : nres S X R) : nres S X R :=
  match rights with
  | [] => next
  | e :: rights =>
      mm_rest rights
        (match mcall rop e with
         | KTransmuted rk rv rr => n_cons rk rv next (rd rr (nred next))
         | KDropped rr => n_with next (rd rr (nred next))
         end)
  end.

(** lnode.rs:541-623, [transmute_with_transmuted_lnode]. *)
Definition mm_lnode (this : lnode K V) (right : lnode L W) (depth : N) : outcome (nres S X R) :=
  if hashk (l_key this) =? hashk (l_key right) then
    let* rights := rights_loop fuel right right [(l_key right, l_value right)] in
    let (next, rights) := mm_l_impl this rights in
    Ret (mm_rest rights next)
  else mm_apart (NL this) (NL right) depth.

(** lnode.rs:936-970, [transmute_with_transmuted_snode_impl]. *)
Fixpoint mm_ls_impl (this : lnode K V) (right : snode L W) : nres S X R :=
  if keqb (l_key this) (s_key right) then
    l_transmute_result rd (mcall both ((l_key this, l_value this), (s_key right, s_value right)))
      (n_transmute rd lop (l_next this))
  else
    l_transmute_result rd (mcall lop (l_key this, l_value this))
      (match this with
       | LNL _ _ n _ => mm_ls_impl n right
       | LNS _ _ s _ => mm_values (s_key s, s_value s) (s_key right, s_value right)
       end).

(** lnode.rs:887-934, [transmute_with_transmuted_snode]. *)
Definition mm_lsnode (this : lnode K V) (right : snode L W) (depth : N) : outcome (nres S X R) :=
  if hashk (l_key this) =? hashk (s_key right) then Ret (mm_ls_impl this right)
  else mm_apart (NL this) (NS right) depth.

(** snode.rs:427-470, [transmute_with_transmuted_snode]. *)
Definition mm_snode (this : snode K V) (right : snode L W) (depth : N) : outcome (nres S X R) :=
  if hashk (s_key this) =? hashk (s_key right) then
    Ret (mm_values (s_key this, s_value this) (s_key right, s_value right))
  else mm_apart (NS this) (NS right) depth.

(** cnode.rs:807-827, :1198-1215, :1583-1600. *)
Definition mm_add (a : acc S X R) (index : N) (ol : option (mnode K V)) (or : option (mnode L W))
  (n : nres S X R) : outcome (acc S X R) := push_new rd a index n.

End MM.

(** * The families *)
Section TMFamily.
Context {E : Env} {K V L W R : Type} {KK : Key K} {KL : Key L}.
Context (rdef : R) (rd : R -> R -> R) (st : strategy).
Context (both : transform_op ((K * V) * (L * W)) V R) (lop : transform_op (K * V) V R)
  (rop : transmute_op (L * W) K V R).

(** Two collision lists or leaves: snode.rs:115-133 and lnode.rs:224-243, and
    mnode.rs:196-216, :280-300 when a branch was above.  Leaf against list goes
    to the mirrored operation. *)
Definition tm_leaf (this : lnext K V) (right : lnext L W) (depth : N) : outcome (tres K V R) :=
  match this, right with
  | NL l, NL r => tm_lnode rd both lop rop l r depth
  | NL l, NS r => tm_lsnode rd both lop rop l r depth
  | NS s, NL r => mt_lsnode rd (tflip both) rop lop r s depth
  | NS s, NS r => tm_snode rd both lop rop s r depth
  end.

Definition tm_lone (n : mnode K V) : outcome (tres K V R) := m_transform rdef rd st lop n.
Definition tm_rone (n : mnode L W) : outcome (tres K V R) :=
  let* x := m_transmute rdef rd rop n in Ret (TN x).

(** cnode.rs:968-1060 (collision list, which does not keep the flag) and
    :1355-1446 (leaf). *)
Definition tm_tree_leaf (right : lnext L W) : mnode K V -> N -> outcome (tres K V R) :=
  m_leaf rdef (tm_add rd (match right with NL _ => false | NS _ => true end)) tm_lone tm_rone tm_done tm_leaf right.

End TMFamily.

Section MTFamily.
Context {E : Env} {K V L W R : Type} {KK : Key K} {KL : Key L}.
Context (rdef : R) (rd : R -> R -> R) (st : strategy).
Context (both : transform_op ((K * V) * (L * W)) W R) (lop : transmute_op (K * V) L W R)
  (rop : transform_op (L * W) W R).

(** Two collision lists or leaves: snode.rs:135-152, lnode.rs:245-264,
    mnode.rs:218-237, :302-321. *)
Definition mt_leaf (this : lnext K V) (right : lnext L W) (depth : N) : outcome (tres L W R) :=
  match this, right with
  | NL l, NL r => tm_lnode rd (tflip both) rop lop r l depth
  | NL l, NS r => mt_lsnode rd both lop rop l r depth
  | NS s, NL r => tm_lsnode rd (tflip both) rop lop r s depth
  | NS s, NS r => mt_snode rd both lop rop s r depth
  end.

Definition mt_lone (n : mnode K V) : outcome (tres L W R) :=
  let* x := m_transmute rdef rd lop n in Ret (TN x).
Definition mt_rone (n : mnode L W) : outcome (tres L W R) := m_transform rdef rd st rop n.

(** cnode.rs:1062-1150 and :1448-1535. *)
Definition mt_tree_leaf (right : lnext L W) : mnode K V -> N -> outcome (tres L W R) :=
  m_leaf rdef (mt_add rd (match right with NL _ => false | NS _ => true end)) mt_lone mt_rone mt_done mt_leaf right.

End MTFamily.

Section MMFamily.
Context {E : Env} {K V L W S X R : Type} {KK : Key K} {KL : Key L} {KS : Key S}.
Context (rdef : R) (rd : R -> R -> R).
Context (both : transmute_op ((K * V) * (L * W)) S X R) (lop : transmute_op (K * V) S X R)
  (rop : transmute_op (L * W) S X R).

(** Two collision lists or leaves: snode.rs:401-425, lnode.rs:266-290,
    mnode.rs:239-259, :323-343. *)
Definition mm_leaf (this : lnext K V) (right : lnext L W) (depth : N) : outcome (nres S X R) :=
  match this, right with
  | NL l, NL r => mm_lnode rd both lop rop l r depth
  | NL l, NS r => mm_lsnode rd both lop rop l r depth
  | NS s, NL r => mm_lsnode rd (mflip both) rop lop r s depth
  | NS s, NS r => mm_snode rd both lop rop s r depth
  end.

(** cnode.rs:1152-1228 and :1537-1613. *)
Definition mm_tree_leaf (right : lnext L W) : mnode K V -> N -> outcome (nres S X R) :=
  m_leaf rdef (mm_add rd) (m_transmute rdef rd lop) (m_transmute rdef rd rop) finish mm_leaf right.

End MMFamily.

Section Joint.
Context {E : Env} {K V L W R : Type} {KK : Key K} {KL : Key L}.
Context (rdef : R) (rd : R -> R -> R) (st : strategy).

(** mnode.rs:112-133; cnode.rs:585-673 is sequential, [st] only reaches the
    transforms below it.  Leaf against branch: snode.rs:118, lnode.rs:228. *)
Definition m_tm (both : transform_op ((K * V) * (L * W)) V R) (lop : transform_op (K * V) V R)
  (rop : transmute_op (L * W) K V R) : mnode K V -> mnode L W -> N -> outcome (tres K V R) :=
  m_joint rdef rd (tm_add rd true) (tm_lone rdef rd st lop) (tm_rone rdef rd rop) tm_done
    (tm_leaf rd both lop rop) (tm_tree_leaf rdef rd st both lop rop)
    (mt_tree_leaf rdef rd st (tflip both) rop lop) None Sequential.

(** mnode.rs:135-154; cnode.rs:675-764.  Leaf against branch: snode.rs:138, lnode.rs:249. *)
Definition m_mt (both : transform_op ((K * V) * (L * W)) W R) (lop : transmute_op (K * V) L W R)
  (rop : transform_op (L * W) W R) : mnode K V -> mnode L W -> N -> outcome (tres L W R) :=
  m_joint rdef rd (mt_add rd true) (mt_lone rdef rd lop) (mt_rone rdef rd st rop) mt_done
    (mt_leaf rd both lop rop) (mt_tree_leaf rdef rd st both lop rop)
    (tm_tree_leaf rdef rd st (tflip both) rop lop) None Sequential.

(** mnode.rs:156-175; cnode.rs:766-840.  Leaf against branch: snode.rs:416, lnode.rs:281. *)
Definition m_mm {S X} {KS : Key S} (both : transmute_op ((K * V) * (L * W)) S X R) (lop : transmute_op (K * V) S X R)
  (rop : transmute_op (L * W) S X R) : mnode K V -> mnode L W -> N -> outcome (nres S X R) :=
  m_joint rdef rd (mm_add rd) (m_transmute rdef rd lop) (m_transmute rdef rd rop) finish
    (mm_leaf rd both lop rop) (mm_tree_leaf rdef rd both lop rop)
    (mm_tree_leaf rdef rd (mflip both) rop lop) None Sequential.

(** * The public operations *)

(** hash_trie.rs:121-143, map.rs:182-199. *)
Definition map_tm both lop rop (m : trie K V) (right : trie L W) : outcome (trie K V * R * origin) :=
  let* t := m_tm both lop rop m right 0 in
  match t with
  | TU r => Ret (m, r, Self)
  | TN n => Ret (nres_trie n, Other)
  end.

(** hash_trie.rs:145-167, map.rs:225-242. *)
Definition map_mt both lop rop (m : trie K V) (right : trie L W) : outcome (trie L W * R * origin) :=
  let* t := m_mt both lop rop m right 0 in
  match t with
  | TU r => Ret (right, r, Right)
  | TN n => Ret (nres_trie n, Other)
  end.

(** hash_trie.rs:169-195, map.rs:245-265. *)
Definition map_mm {S X} {KS : Key S} (both : transmute_op ((K * V) * (L * W)) S X R) lop rop
  (m : trie K V) (right : trie L W) : outcome (trie S X * R) :=
  let* n := m_mm both lop rop m right 0 in
  Ret (nres_trie n).

End Joint.
