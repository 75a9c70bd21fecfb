(** transform_with_transformed: two maps of the same type joined, either of
    which may come back unchanged (src/node/snode.rs, lnode.rs, cnode.rs,
    mnode.rs, src/hash_trie.rs, src/map.rs).  The traversals are those of
    Joint.v. *)
From Coq Require Import NArith List Bool.
From Verif Require Import Base Words Flag Bia Node Api Trans Transform Joint.
Import ListNotations.
Open Scope N_scope.

Section TT.
Context {E : Env} {K V R : Type} {KK : Key K}.
Context (rdef : R) (rd : R -> R -> R).
Context (both : joint_op (K * V) V R) (lop : transform_op (K * V) V R) (rop : transform_op (K * V) V R).

(** What a joint result carries: results.rs:214-240. *)
Definition jred (j : jres K V R) : R :=
  match j with JLR r => r | JL r => r | JR r => r | JN n => nred n end.

(** [Unchanged] of one side becomes [UnchangedL] or [UnchangedR], e.g.
    cnode.rs:506-512, :518-524. *)
Definition t_left (t : tres K V R) : jres K V R := match t with TU r => JL r | TN n => JN n end.
Definition t_right (t : tres K V R) : jres K V R := match t with TU r => JR r | TN n => JN n end.

(** Leaves with different hashes: snode.rs:170-193, lnode.rs:351-383, :677-703. *)
Definition tt_apart (this right : lnext K V) (depth : N) : outcome (jres K V R) :=
  let l := n_transform rd lop this in
  let r := n_transform rd rop right in
  let* (lf, rf) := two_flags (next_key this) (next_key right) depth in
  let z := rd (tred l) (tred r) in
  match tout (next_mnode this) l, tout (next_mnode right) r with
  | Some a, Some b => let* c := cnode_lift a lf b rf in Ret (JN (NRC c z))
  | Some _, None => Ret (t_left (t_with l z))
  | None, _ => Ret (t_right (t_with r z))
  end.

(** snode.rs:196-235, [transform_with_transformed_snode_impl]. *)
Definition tt_s_impl (this right : snode K V) : jres K V R :=
  if keqb (s_key this) (s_key right) then
    match jcall both (s_key this, s_value this) (s_key right, s_value right) with
    | BUnchangedLR r => JLR r
    | BUnchangedL r => JL r
    | BUnchangedR r => JR r
    | BTransformed v r => JN (NRS (SN (s_key this) v) r)
    | BDropped r => JN (NRZ r)
    end
  else
    match tcall lop (s_key this, s_value this), tcall rop (s_key right, s_value right) with
    | VUnchanged lr, VUnchanged rr => JN (NRL (l_new (s_key right) (s_value right) (NS this)) (rd lr rr))
    | VUnchanged lr, VTransformed rv rr => JN (NRL (l_new (s_key right) rv (NS this)) (rd lr rr))
    | VUnchanged lr, VDropped rr => JL (rd lr rr)
    | VTransformed lv lr, VUnchanged rr => JN (NRL (l_new (s_key this) lv (NS right)) (rd lr rr))
    | VTransformed lv lr, VTransformed rv rr => JN (NRL (l_new (s_key right) rv (NS (SN (s_key this) lv))) (rd lr rr))
    | VTransformed lv lr, VDropped rr => JN (NRS (SN (s_key this) lv) (rd lr rr))
    | VDropped lr, VUnchanged rr => JR (rd lr rr)
    | VDropped lr, VTransformed rv rr => JN (NRS (SN (s_key right) rv) (rd lr rr))
    | VDropped lr, VDropped rr => JN (NRZ (rd lr rr))
    end.

(** The rest of a list, returned as it is, e.g. lnode.rs:1007-1010. *)
Definition next_nres (n : lnext K V) (r : R) : nres K V R :=
  match n with NL l => NRL l r | NS s => NRS s r end.

(** lnode.rs:972-1018, [joint_transform_with_joint_transformed_result]; [that]
    is unwrapped where the code unwraps it. *)
Definition jj (this : lnode K V) (result : bres V R) (that : option (K * V)) (next : jres K V R) : outcome (jres K V R) :=
  let k := l_key this in let v := l_value this in
  match result with
  | BUnchangedLR lr =>
      let z := rd lr (jred next) in
      Ret (match next with
           | JLR _ => JLR z | JL _ => JL z | JR _ => JR z
           | JN n => JN (n_cons k v n z)
           end)
  | BUnchangedL lr =>
      let z := rd lr (jred next) in
      match next with
      | JLR _ | JL _ => Ret (JL z)
      | JR _ => let* e := unwrap that in Ret (JN (NRL (l_new k v (NS (SN (fst e) (snd e)))) z))
      | JN n => Ret (JN (n_cons k v n z))
      end
  | BUnchangedR lr =>
      let z := rd lr (jred next) in
      match next with
      | JLR _ | JR _ => let* e := unwrap that in Ret (JN (NRL (l_new k v (NS (SN (fst e) (snd e)))) z))
      | JL _ => let* e := unwrap that in Ret (JN (NRL (l_new (fst e) (snd e) (l_next this)) z))
      | JN (NRZ _) => Ret (JR z)
      | JN n => let* e := unwrap that in Ret (JN (n_cons (fst e) (snd e) n z))
      end
  | BTransformed lv lr =>
      let z := rd lr (jred next) in
      match next with
      | JLR _ | JL _ => Ret (JN (NRL (l_new k lv (l_next this)) z))
      | JR _ => let* e := unwrap that in Ret (JN (NRL (l_new k v (NS (SN (fst e) (snd e)))) z))
      | JN n => Ret (JN (n_cons k lv n z))
      end
  | BDropped lr =>
      let z := rd lr (jred next) in
      match next with
      | JLR _ | JL _ => Ret (JN (next_nres (l_next this) z))
      | JR _ => let* e := unwrap that in Ret (JN (NRS (SN (fst e) (snd e)) z))
      | JN n => Ret (JN (n_with n z))
      end
  end.

(** lnode.rs:1020-1054, [joint_transform_with_transformed_result]. *)
Definition jt (this : lnode K V) (result : bres V R) (that : snode K V) (next : tres K V R) : jres K V R :=
  let k := l_key this in let v := l_value this in
  match result with
  | BUnchangedLR lr | BUnchangedL lr =>
      let z := rd lr (tred next) in
      match next with
      | TU _ => JL z
      | TN n => JN (n_cons k v n z)
      end
  | BUnchangedR lr =>
      let z := rd lr (tred next) in
      match next with
      | TU _ => JN (NRL (l_new (s_key that) (s_value that) (l_next this)) z)
      | TN (NRZ _) => JR z
      | TN n => JN (n_cons (s_key that) (s_value that) n z)
      end
  | BTransformed lv lr =>
      let z := rd lr (tred next) in
      match next with
      | TU _ => JN (NRL (l_new k lv (l_next this)) z)
      | TN n => JN (n_cons k lv n z)
      end
  | BDropped lr =>
      let z := rd lr (tred next) in
      match next with
      | TU _ => JN (next_nres (l_next this) z)
      | TN n => JN (n_with n z)
      end
  end.

(** lnode.rs:1086-1117, [transform_with_joint_transformed_result]. *)
Definition tj (this : lnode K V) (result : vres V R) (that : snode K V) (next : jres K V R) : jres K V R :=
  let k := l_key this in let v := l_value this in
  match result with
  | VUnchanged lr =>
      let z := rd lr (jred next) in
      match next with
      | JLR _ | JL _ => JL z
      | JR _ => JN (NRL (l_new (s_key that) (s_value that) (NL this)) z)
      | JN n => JN (n_cons k v n z)
      end
  | VTransformed lv lr =>
      let z := rd lr (jred next) in
      match next with
      | JLR _ | JL _ => JN (NRL (l_new k lv (l_next this)) z)
      | JR _ => JN (NRL (l_new k lv (NS that)) z)
      | JN n => JN (n_cons k lv n z)
      end
  | VDropped lr =>
      let z := rd lr (jred next) in
      match next with
      | JLR _ | JL _ => JN (next_nres (l_next this) z)
      | JR _ => JR z
      | JN n => JN (n_with n z)
      end
  end.

(** results.rs, [Unchanged] of the left side only, as in lnode.rs:415-419. *)
Definition v_left (r : vres V R) : bres V R :=
  match r with
  | VUnchanged r => BUnchangedL r
  | VTransformed v r => BTransformed v r
  | VDropped r => BDropped r
  end.

(** lnode.rs:386-423, [transform_with_transformed_lnode_impl]; [rights] is
    threaded through as it is mutated. *)
Fixpoint tt_l_impl (this : lnode K V) (rights : list (K * V)) : outcome (jres K V R * list (K * V)) :=
  let* (nr, that) :=
    match this with
    | LNL _ _ n _ => let* nr := tt_l_impl n rights in Ret (nr, None)
    | LNS _ _ s _ =>
        match take_key (s_key s) rights with
        | Some (e, rights) => Ret ((tt_s_impl s (SN (fst e) (snd e)), rights), Some e)
        | None => Ret ((t_left (s_transform lop s), rights), None)
        end
    end in
  let (next, rights) := (nr : jres K V R * list (K * V)) in
  let (result, rights) :=
    match take_key (l_key this) rights with
    | Some (e, rights) => (jcall both (l_key this, l_value this) e, rights)
    | None => (v_left (tcall lop (l_key this, l_value this)), rights)
    end in
  let* t := jj this result that next in
  Ret (t, rights).

(** lnode.rs:323-345, the loop over the entries left in [rights]. *)
Fixpoint tt_rest (this : lnode K V) (rights : list (K * V)) (next : jres K V R) : outcome (jres K V R) :=
  match rights with
  | [] => Ret next
  | e :: rights =>
      let* next :=
        (match tcall rop e, next with
         | _, JR _ => Panic
         | VUnchanged rr, JN n => Ret (JN (n_cons (fst e) (snd e) n (rd rr (nred n))))
         | VUnchanged rr, JLR rn | VUnchanged rr, JL rn =>
             Ret (JN (NRL (l_new (fst e) (snd e) (NL this)) (rd rr rn)))
         | VTransformed rv rr, JN n => Ret (JN (n_cons (fst e) rv n (rd rr (nred n))))
         | VTransformed rv rr, JLR rn | VTransformed rv rr, JL rn =>
             Ret (JN (NRL (l_new (fst e) rv (NL this)) (rd rr rn)))
         | VDropped rr, JN n => Ret (JN (n_with n (rd rr (nred n))))
         | VDropped rr, JLR rn | VDropped rr, JL rn => Ret (JL (rd rr rn))
         end) in
      tt_rest this rights next
  end.

(** lnode.rs:292-384, [transform_with_transformed_lnode]. *)
Definition tt_lnode (this right : lnode K V) (depth : N) : outcome (jres K V R) :=
  if hashk (l_key this) =? hashk (l_key right) then
    let* rights := rights_loop fuel right right [(l_key right, l_value right)] in
    let* (next, rights) := tt_l_impl this rights in
    tt_rest this rights next
  else tt_apart (NL this) (NL right) depth.

(** lnode.rs:706-730, [transform_with_transformed_snode_impl]. *)
Fixpoint tt_ls_impl (this : lnode K V) (right : snode K V) : jres K V R :=
  if keqb (l_key this) (s_key right) then
    jt this (jcall both (l_key this, l_value this) (s_key right, s_value right)) right (n_transform rd lop (l_next this))
  else
    tj this (tcall lop (l_key this, l_value this)) right
      (match this with
       | LNL _ _ n _ => tt_ls_impl n right
       | LNS _ _ s _ => tt_s_impl s right
       end).

(** lnode.rs:659-704, [transform_with_transformed_snode]. *)
Definition tt_lsnode (this : lnode K V) (right : snode K V) (depth : N) : outcome (jres K V R) :=
  if hashk (l_key this) =? hashk (s_key right) then Ret (tt_ls_impl this right)
  else tt_apart (NL this) (NS right) depth.

(** snode.rs:154-194, [transform_with_transformed_snode]. *)
Definition tt_snode (this right : snode K V) (depth : N) : outcome (jres K V R) :=
  if hashk (s_key this) =? hashk (s_key right) then Ret (tt_s_impl this right)
  else tt_apart (NS this) (NS right) depth.

(** cnode.rs:530-580, :893-941, :1280-1328. *)
Definition tt_add (a : acc K V R) (index : N) (ol or : option (mnode K V)) (t : jres K V R) : outcome (acc K V R) :=
  match t with
  | JLR r => let* l := unwrap ol in push rd a index l (m_size l) r
  | JL r => let* l := unwrap ol in let* a := push rd a index l (m_size l) r in Ret (set_ur a)
  | JR r => let* n := unwrap or in let* a := push rd a index n (m_size n) r in Ret (set_ul a)
  | JN n => let* a := push_new rd a index n in Ret (set_ur (set_ul a))
  end.

(** cnode.rs:457-477, :944-964, :1331-1351. *)
Definition tt_done (a : acc K V R) : outcome (jres K V R) :=
  if a_ul a then if a_ur a then Ret (JLR (a_red a)) else Ret (JL (a_red a))
  else if a_ur a then Ret (JR (a_red a))
  else let* n := finish a in Ret (JN n).

(** cnode.rs:380-430, the early returns of branch against branch. *)
Definition tt_short : option (jres K V R) :=
  match both, lop, rop with
  | JUnchangedLR r, TUnchanged _, TRemoved _ => Some (JL r)
  | JUnchangedLR r, TRemoved _, TUnchanged _ => Some (JR r)
  | JUnchangedL r, TUnchanged _, TRemoved _ => Some (JL r)
  | JUnchangedR r, TRemoved _, TUnchanged _ => Some (JR r)
  | JRemoved r, TRemoved _, TRemoved _ => Some (JN (NRZ r))
  | _, _, _ => None
  end.

End TT.

Section TTFamily.
Context {E : Env} {K V R : Type} {KK : Key K}.
Context (rdef : R) (rd : R -> R -> R) (st : strategy).
Context (both : joint_op (K * V) V R) (lop : transform_op (K * V) V R) (rop : transform_op (K * V) V R).

(** Two collision lists or leaves: snode.rs:96-111, lnode.rs:208-222,
    mnode.rs:177-193, :261-277.  Leaf against list goes to list against leaf
    with everything flipped. *)
Definition tt_leaf (this right : lnext K V) (depth : N) : outcome (jres K V R) :=
  match this, right with
  | NL l, NL r => tt_lnode rd both lop rop l r depth
  | NL l, NS r => tt_lsnode rd both lop rop l r depth
  | NS s, NL r => let* t := tt_lsnode rd (jflip both) rop lop r s depth in Ret (jres_flip t)
  | NS s, NS r => tt_snode rd both lop rop s r depth
  end.

(** One side only: cnode.rs:505-512, :517-524, :872-880, :884-889, :1260-1268, :1272-1276. *)
Definition tt_lone (n : mnode K V) : outcome (jres K V R) := let* t := m_transform rdef rd st lop n in Ret (t_left t).
Definition tt_rone (n : mnode K V) : outcome (jres K V R) := let* t := m_transform rdef rd st rop n in Ret (t_right t).

(** cnode.rs:842-966 (collision list) and :1230-1353 (leaf). *)
Definition tt_tree_leaf (right : lnext K V) : mnode K V -> N -> outcome (jres K V R) :=
  m_leaf rdef (tt_add rd) tt_lone tt_rone tt_done tt_leaf right.

End TTFamily.

Section TTJoint.
Context {E : Env} {K V R : Type} {KK : Key K}.
Context (rdef : R) (rd : R -> R -> R) (st : strategy).

(** Leaf against branch: snode.rs:106, lnode.rs:218. *)
Definition tt_leaf_tree (both : joint_op (K * V) V R) (lop rop : transform_op (K * V) V R)
  (this : lnext K V) (right : mnode K V) (depth : N) : outcome (jres K V R) :=
  let* t := tt_tree_leaf rdef rd st (jflip both) rop lop this right depth in Ret (jres_flip t).

(** mnode.rs:93-109, cnode.rs:285-301, :371-583. *)
Definition m_tt (both : joint_op (K * V) V R) (lop rop : transform_op (K * V) V R)
  : mnode K V -> mnode K V -> N -> outcome (jres K V R) :=
  m_joint rdef rd (tt_add rd) (tt_lone rdef rd st lop) (tt_rone rdef rd st rop) tt_done
    (tt_leaf rd both lop rop) (tt_tree_leaf rdef rd st both lop rop) (tt_leaf_tree both lop rop)
    (tt_short both lop rop) st.

(** hash_trie.rs:101-119, map.rs:144-156. *)
Definition map_tt both lop rop (m right : trie K V) : outcome (trie K V * R * origin) :=
  let* t := m_tt both lop rop m right 0 in
  match t with
  | JLR r | JL r => Ret (m, r, Self)
  | JR r => Ret (right, r, Right)
  | JN n => Ret (nres_trie n, Other)
  end.

End TTJoint.
