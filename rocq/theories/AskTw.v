(** transform_with_transformed when no code of the client is a function.

    Compare JointT.v and EffJ.v, function by function; what is an event and what is not
    is as in AskJ.v.  The order of the calls is the code's. *)
From Coq Require Import NArith List Bool.
From Verif Require Import Base Words Flag Bia Node Api Trans Transform Joint JointT Eff EffApi Ask AskT AskJ.
Import ListNotations.
Open Scope N_scope.

(** * The traversal of two branches *)
Section Traverse.
Context {E : Env} {Q : Type} {A : Q -> Type} {K V R T : Type}.
Context (def : prog A R) (red : R -> R -> prog A R).
Context (add : acc K V R -> N -> option (mnode K V) -> option (mnode K V) -> T -> prog A (acc K V R)).
Context (lone : mnode K V -> prog A T) (rone : mnode K V -> prog A T) (done : acc K V R -> outcome T).
Context (leaf : lnext K V -> lnext K V -> N -> prog A T).
Context (tree_leaf : lnext K V -> mnode K V -> N -> prog A T).
Context (leaf_tree : lnext K V -> mnode K V -> N -> prog A T).
Context (short : option T) (st : strategy).

(** mnode.rs:93-109; branch against branch is cnode.rs:371-583. *)
Fixpoint atw_joint (n : mnode K V) (right : mnode K V) (depth : N) {struct n} : prog A T :=
  match n with
  | MC (BIA bits values extra) =>
      match right with
      | MC rb =>
          match short with
          | Some t => PRet t
          | None =>
              let+ a := arun_loop def red st
                          (acc_step add lone rone (BIA bits (map (fun c => (c, fun r => atw_joint c r (depth + 1))) values) extra) rb) in
              lift (done a)
          end
      | ML r => tree_leaf (NL r) n depth
      | MS r => tree_leaf (NS r) n depth
      end
  | ML l =>
      match right with
      | MC _ => leaf_tree (NL l) right depth
      | ML r => leaf (NL l) (NL r) depth
      | MS r => leaf (NL l) (NS r) depth
      end
  | MS s =>
      match right with
      | MC _ => leaf_tree (NS s) right depth
      | ML r => leaf (NS s) (NL r) depth
      | MS r => leaf (NS s) (NS r) depth
      end
  end.

End Traverse.

(** * Collision lists and leaves *)
Section TT.
Context {E : Env} {Q : Type} {A : Q -> Type} {K V R : Type}.
Context (red : R -> R -> prog A R) (ck : K -> prog A K) (cv : V -> prog A V) (ky : keyed A K K).
Context (both : ejoint A (K * V) V R) (lop rop : etransform A (K * V) V R).

(** snode.rs:170-193, lnode.rs:351-383, :677-703: both sides are worked out before the
    flags. *)
Definition att_apart (this right : lnext K V) (h h' : word) (depth : N) : prog A (jres K V R) :=
  let+ l := an_transform red ck cv lop this in
  let+ r := an_transform red ck cv rop right in
  let+ (lf, rf) := lift (aflags h h' depth) in
  match tout (next_mnode this) l, tout (next_mnode right) r with
  | Some a, Some b => let+ n := apair red a lf b rf (tred l) (tred r) in PRet (JN n)
  | Some _, None => let+ z := red (tred l) (tred r) in PRet (t_left (t_with l z))
  | None, _ => let+ z := red (tred l) (tred r) in PRet (t_right (t_with r z))
  end.

(** snode.rs:196-235, [transform_with_transformed_snode_impl]. *)
Definition att_s_impl (this right : snode K V) : prog A (jres K V R) :=
  let+ b := ky_eq ky (s_key this) (s_key right) in
  if (b : bool) then
    let+ o := ejcall both (s_key this, s_value this) (s_key right, s_value right) in
    match o with
    | BUnchangedLR r => PRet (JLR r)
    | BUnchangedL r => PRet (JL r)
    | BUnchangedR r => PRet (JR r)
    | BTransformed v r => let+ k := ck (s_key this) in PRet (JN (NRS (SN k v) r))
    | BDropped r => PRet (JN (NRZ r))
    end
  else
    let+ l := etcall lop (s_key this, s_value this) in
    let+ r := etcall rop (s_key right, s_value right) in
    match l, r with
    | VUnchanged lr, VUnchanged rr =>
        let+ k := ck (s_key right) in
        let+ v := cv (s_value right) in
        let+ z := red lr rr in PRet (JN (NRL (l_new k v (NS this)) z))
    | VUnchanged lr, VTransformed rv rr =>
        let+ k := ck (s_key right) in
        let+ z := red lr rr in PRet (JN (NRL (l_new k rv (NS this)) z))
    | VUnchanged lr, VDropped rr => let+ z := red lr rr in PRet (JL z)
    | VTransformed lv lr, VUnchanged rr =>
        let+ k := ck (s_key this) in
        let+ z := red lr rr in PRet (JN (NRL (l_new k lv (NS right)) z))
    | VTransformed lv lr, VTransformed rv rr =>
        let+ k := ck (s_key right) in
        let+ k' := ck (s_key this) in
        let+ z := red lr rr in PRet (JN (NRL (l_new k rv (NS (SN k' lv))) z))
    | VTransformed lv lr, VDropped rr =>
        let+ k := ck (s_key this) in
        let+ z := red lr rr in PRet (JN (NRS (SN k lv) z))
    | VDropped lr, VUnchanged rr => let+ z := red lr rr in PRet (JR z)
    | VDropped lr, VTransformed rv rr =>
        let+ k := ck (s_key right) in
        let+ z := red lr rr in PRet (JN (NRS (SN k rv) z))
    | VDropped lr, VDropped rr => let+ z := red lr rr in PRet (JN (NRZ z))
    end.

(** [that.as_ref().unwrap().0.clone()] and [.1.clone()], lnode.rs:986. *)
Definition att_that (that : option (K * V)) : prog A (K * V) :=
  let+ e := lift (unwrap that) in
  let+ k := ck (fst e) in
  let+ v := cv (snd e) in
  PRet (k, v).

(** [this.key.clone(), this.value.clone()] with the clone of [that] behind, e.g.
    lnode.rs:986. *)
Definition att_two (this : lnode K V) (that : option (K * V)) (x y : R) : prog A (jres K V R) :=
  let+ k := ck (l_key this) in
  let+ v := cv (l_value this) in
  let+ e := att_that that in
  let+ z := red x y in
  PRet (JN (NRL (l_new k v (NS (SN (fst e) (snd e)))) z)).

(** lnode.rs:972-1018, [joint_transform_with_joint_transformed_result]. *)
Definition ajj (this : lnode K V) (result : bres V R) (that : option (K * V)) (next : jres K V R) : prog A (jres K V R) :=
  match result with
  | BUnchangedLR lr =>
      match next with
      | JLR rr => let+ z := red lr rr in PRet (JLR z)
      | JL rr => let+ z := red lr rr in PRet (JL z)
      | JR rr => let+ z := red lr rr in PRet (JR z)
      | JN n =>
          let+ k := ck (l_key this) in
          let+ v := cv (l_value this) in
          let+ z := red lr (nred n) in PRet (JN (n_cons k v n z))
      end
  | BUnchangedL lr =>
      match next with
      | JLR rr | JL rr => let+ z := red lr rr in PRet (JL z)
      | JR rr => att_two this that lr rr
      | JN n =>
          let+ k := ck (l_key this) in
          let+ v := cv (l_value this) in
          let+ z := red lr (nred n) in PRet (JN (n_cons k v n z))
      end
  | BUnchangedR lr =>
      match next with
      | JLR rr | JR rr => att_two this that lr rr
      | JL rr =>
          let+ e := att_that that in
          let+ z := red lr rr in PRet (JN (NRL (l_new (fst e) (snd e) (l_next this)) z))
      | JN (NRZ rr) => let+ z := red lr rr in PRet (JR z)
      | JN n =>
          let+ e := att_that that in
          let+ z := red lr (nred n) in PRet (JN (n_cons (fst e) (snd e) n z))
      end
  | BTransformed lv lr =>
      match next with
      | JLR rr | JL rr =>
          let+ k := ck (l_key this) in
          let+ z := red lr rr in PRet (JN (NRL (l_new k lv (l_next this)) z))
      | JR rr => att_two this that lr rr
      | JN n =>
          let+ k := ck (l_key this) in
          let+ z := red lr (nred n) in PRet (JN (n_cons k lv n z))
      end
  | BDropped lr =>
      match next with
      | JLR rr | JL rr => let+ z := red lr rr in PRet (JN (next_nres (l_next this) z))
      | JR rr =>
          let+ e := att_that that in
          let+ z := red lr rr in PRet (JN (NRS (SN (fst e) (snd e)) z))
      | JN n => let+ z := red lr (nred n) in PRet (JN (n_with n z))
      end
  end.

(** lnode.rs:1020-1054, [joint_transform_with_transformed_result]. *)
Definition ajt (this : lnode K V) (result : bres V R) (that : snode K V) (next : tres K V R) : prog A (jres K V R) :=
  match result with
  | BUnchangedLR lr | BUnchangedL lr =>
      match next with
      | TU rr => let+ z := red lr rr in PRet (JL z)
      | TN n =>
          let+ k := ck (l_key this) in
          let+ v := cv (l_value this) in
          let+ z := red lr (nred n) in PRet (JN (n_cons k v n z))
      end
  | BUnchangedR lr =>
      match next with
      | TU rr =>
          let+ k := ck (s_key that) in
          let+ v := cv (s_value that) in
          let+ z := red lr rr in PRet (JN (NRL (l_new k v (l_next this)) z))
      | TN (NRZ rr) => let+ z := red lr rr in PRet (JR z)
      | TN n =>
          let+ k := ck (s_key that) in
          let+ v := cv (s_value that) in
          let+ z := red lr (nred n) in PRet (JN (n_cons k v n z))
      end
  | BTransformed lv lr =>
      let+ k := ck (l_key this) in
      match next with
      | TU rr => let+ z := red lr rr in PRet (JN (NRL (l_new k lv (l_next this)) z))
      | TN n => let+ z := red lr (nred n) in PRet (JN (n_cons k lv n z))
      end
  | BDropped lr =>
      match next with
      | TU rr => let+ z := red lr rr in PRet (JN (next_nres (l_next this) z))
      | TN n => let+ z := red lr (nred n) in PRet (JN (n_with n z))
      end
  end.

(** lnode.rs:1086-1117, [transform_with_joint_transformed_result]. *)
Definition atj (this : lnode K V) (result : vres V R) (that : snode K V) (next : jres K V R) : prog A (jres K V R) :=
  match result with
  | VUnchanged lr =>
      match next with
      | JLR rr | JL rr => let+ z := red lr rr in PRet (JL z)
      | JR rr =>
          let+ k := ck (s_key that) in
          let+ v := cv (s_value that) in
          let+ z := red lr rr in PRet (JN (NRL (l_new k v (NL this)) z))
      | JN n =>
          let+ k := ck (l_key this) in
          let+ v := cv (l_value this) in
          let+ z := red lr (nred n) in PRet (JN (n_cons k v n z))
      end
  | VTransformed lv lr =>
      let+ k := ck (l_key this) in
      match next with
      | JLR rr | JL rr => let+ z := red lr rr in PRet (JN (NRL (l_new k lv (l_next this)) z))
      | JR rr => let+ z := red lr rr in PRet (JN (NRL (l_new k lv (NS that)) z))
      | JN n => let+ z := red lr (nred n) in PRet (JN (n_cons k lv n z))
      end
  | VDropped lr =>
      match next with
      | JLR rr | JL rr => let+ z := red lr rr in PRet (JN (next_nres (l_next this) z))
      | JR rr => let+ z := red lr rr in PRet (JR z)
      | JN n => let+ z := red lr (nred n) in PRet (JN (n_with n z))
      end
  end.

(** lnode.rs:386-423, [transform_with_transformed_lnode_impl]: the rest of the list
    first (398-412); the entry found for the last leaf is cloned (404) before anything is
    called with it. *)
Fixpoint att_l_impl (this : lnode K V) (rights : list (K * V)) : prog A (jres K V R * list (K * V)) :=
  let+ (nr, that) :=
    match this with
    | LNL _ _ n _ => let+ nr := att_l_impl n rights in PRet (nr, None)
    | LNS _ _ s _ =>
        let+ o := atake_key (ky_eq ky (s_key s)) rights in
        match o with
        | Some (e, rights) =>
            let+ k := ck (fst e) in
            let+ v := cv (snd e) in
            let+ t := att_s_impl s (SN k v) in
            PRet ((t, rights), Some e)
        | None => let+ t := as_transform ck lop s in PRet ((t_left t, rights), None)
        end
    end in
  let (next, rights) := (nr : jres K V R * list (K * V)) in
  let+ o := atake_key (ky_eq ky (l_key this)) rights in
  let+ (result, rights) :=
    match o with
    | Some (e, rights) => let+ o := ejcall both (l_key this, l_value this) e in PRet (o, rights)
    | None => let+ o := etcall lop (l_key this, l_value this) in PRet (v_left o, rights)
    end in
  let+ t := ajj this result that next in
  PRet (t, rights).

(** lnode.rs:323-345, the loop over the entries left in [rights]. *)
Fixpoint att_rest (this : lnode K V) (rights : list (K * V)) (next : jres K V R) : prog A (jres K V R) :=
  match rights with
  | [] => PRet next
  | e :: rights =>
      let+ o := etcall rop e in
      let+ next :=
        match o, next with
        | _, JR _ => PPanic
        | VUnchanged rr, JN n =>
            let+ k := ck (fst e) in
            let+ v := cv (snd e) in
            let+ z := red rr (nred n) in PRet (JN (n_cons k v n z))
        | VUnchanged rr, JLR rn | VUnchanged rr, JL rn =>
            let+ k := ck (fst e) in
            let+ v := cv (snd e) in
            let+ z := red rr rn in PRet (JN (NRL (l_new k v (NL this)) z))
        | VTransformed rv rr, JN n =>
            let+ k := ck (fst e) in
            let+ z := red rr (nred n) in PRet (JN (n_cons k rv n z))
        | VTransformed rv rr, JLR rn | VTransformed rv rr, JL rn =>
            let+ k := ck (fst e) in
            let+ z := red rr rn in PRet (JN (NRL (l_new k rv (NL this)) z))
        | VDropped rr, JN n => let+ z := red rr (nred n) in PRet (JN (n_with n z))
        | VDropped rr, JLR rn | VDropped rr, JL rn => let+ z := red rr rn in PRet (JL z)
        end in
      att_rest this rights next
  end.

(** lnode.rs:292-384, [transform_with_transformed_lnode]. *)
Definition att_lnode (this right : lnode K V) (depth : N) : prog A (jres K V R) :=
  let+ h := ky_hash ky (l_key this) in
  let+ h' := ky_hash' ky (l_key right) in
  if same_hash h h' then
    let+ rights := lift (rights_loop fuel right right [(l_key right, l_value right)]) in
    let+ (next, rights) := att_l_impl this rights in
    att_rest this rights next
  else att_apart (NL this) (NL right) h h' depth.

(** lnode.rs:706-730, [transform_with_transformed_snode_impl]: the rest of the list
    first. *)
Fixpoint att_ls_impl (this : lnode K V) (right : snode K V) : prog A (jres K V R) :=
  let+ b := ky_eq ky (l_key this) (s_key right) in
  if (b : bool) then
    let+ next := an_transform red ck cv lop (l_next this) in
    let+ o := ejcall both (l_key this, l_value this) (s_key right, s_value right) in
    ajt this o right next
  else
    let+ next :=
      match this with
      | LNL _ _ n _ => att_ls_impl n right
      | LNS _ _ s _ => att_s_impl s right
      end in
    let+ o := etcall lop (l_key this, l_value this) in
    atj this o right next.

(** lnode.rs:659-704, [transform_with_transformed_snode]. *)
Definition att_lsnode (this : lnode K V) (right : snode K V) (depth : N) : prog A (jres K V R) :=
  let+ h := ky_hash ky (l_key this) in
  let+ h' := ky_hash' ky (s_key right) in
  if same_hash h h' then att_ls_impl this right
  else att_apart (NL this) (NS right) h h' depth.

(** snode.rs:154-194, [transform_with_transformed_snode]. *)
Definition att_snode (this right : snode K V) (depth : N) : prog A (jres K V R) :=
  let+ h := ky_hash ky (s_key this) in
  let+ h' := ky_hash' ky (s_key right) in
  if same_hash h h' then att_s_impl this right
  else att_apart (NS this) (NS right) h h' depth.

(** cnode.rs:530-580, :893-941, :1280-1328. *)
Definition att_add (a : acc K V R) (index : N) (ol or : option (mnode K V)) (t : jres K V R) : prog A (acc K V R) :=
  match t with
  | JLR r =>
      let+ l := lift (unwrap ol) in
      apush red a index l (m_size l) r
  | JL r =>
      let+ l := lift (unwrap ol) in
      let+ a := apush red a index l (m_size l) r in PRet (set_ur a)
  | JR r =>
      let+ n := lift (unwrap or) in
      let+ a := apush red a index n (m_size n) r in PRet (set_ul a)
  | JN n => let+ a := apush_new red a index n in PRet (set_ur (set_ul a))
  end.

(** cnode.rs:380-430, the early returns of branch against branch. *)
Definition att_short : option (jres K V R) :=
  match both, lop, rop with
  | EJUnchangedLR r, EUnchanged _, ERemoved _ => Some (JL r)
  | EJUnchangedLR r, ERemoved _, EUnchanged _ => Some (JR r)
  | EJUnchangedL r, EUnchanged _, ERemoved _ => Some (JL r)
  | EJUnchangedR r, ERemoved _, EUnchanged _ => Some (JR r)
  | EJRemoved r, ERemoved _, ERemoved _ => Some (JN (NRZ r))
  | _, _, _ => None
  end.

End TT.

Section TTFamily.
Context {E : Env} {Q : Type} {A : Q -> Type} {K V R : Type}.
Context (def : prog A R) (red : R -> R -> prog A R) (ck : K -> prog A K) (cv : V -> prog A V) (ky : keyed A K K) (st : strategy).
Context (both : ejoint A (K * V) V R) (lop rop : etransform A (K * V) V R).

(** snode.rs:96-111, lnode.rs:208-222, mnode.rs:177-193, :261-277.  Leaf against list goes
    to list against leaf with everything flipped. *)
Definition att_leaf (this right : lnext K V) (depth : N) : prog A (jres K V R) :=
  match this, right with
  | NL l, NL r => att_lnode red ck cv ky both lop rop l r depth
  | NL l, NS r => att_lsnode red ck cv ky both lop rop l r depth
  | NS s, NL r => let+ t := att_lsnode red ck cv (ky_flip ky) (ejflip both) rop lop r s depth in PRet (jres_flip t)
  | NS s, NS r => att_snode red ck cv ky both lop rop s r depth
  end.

(** One side only: cnode.rs:505-512, :517-524, :872-880, :884-889, :1260-1268, :1272-1276. *)
Definition att_lone (n : mnode K V) : prog A (jres K V R) := let+ t := am_transform def red ck cv st lop n in PRet (t_left t).
Definition att_rone (n : mnode K V) : prog A (jres K V R) := let+ t := am_transform def red ck cv st rop n in PRet (t_right t).

(** cnode.rs:842-966 and :1230-1353. *)
Definition att_tree_leaf (right : lnext K V) : mnode K V -> N -> prog A (jres K V R) :=
  am_leaf def (att_add red) att_lone att_rone tt_done (ky_hash' ky) att_leaf right.

End TTFamily.

Section TTJoint.
Context {E : Env} {Q : Type} {A : Q -> Type} {K V R : Type}.
Context (def : prog A R) (red : R -> R -> prog A R) (ck : K -> prog A K) (cv : V -> prog A V) (ky : keyed A K K) (st : strategy).
Context (both : ejoint A (K * V) V R) (lop rop : etransform A (K * V) V R).

(** Leaf against branch: snode.rs:106, lnode.rs:218. *)
Definition att_leaf_tree (this : lnext K V) (right : mnode K V) (depth : N) : prog A (jres K V R) :=
  let+ t := att_tree_leaf def red ck cv (ky_flip ky) st (ejflip both) rop lop this right depth in PRet (jres_flip t).

(** mnode.rs:93-109, cnode.rs:285-301, :371-583. *)
Definition am_tt : mnode K V -> mnode K V -> N -> prog A (jres K V R) :=
  atw_joint def red (att_add red) (att_lone def red ck cv st lop) (att_rone def red ck cv st rop) tt_done
    (att_leaf red ck cv ky both lop rop) (att_tree_leaf def red ck cv ky st both lop rop) att_leaf_tree
    (att_short both lop rop) st.

End TTJoint.

(** hash_trie.rs:101-119, map.rs:144-156. *)
Definition ask_tt {E : Env} {K V R} (st : strategy) (wb : jway R) (wl wr : tway R) (m right : trie K V)
  : prog (jreply K V K V K V (bres V R) (vres V R) (vres V R) R) (trie K V * R * origin) :=
  let ask q := PAsk (A := jreply K V K V K V (bres V R) (vres V R) (vres V R) R) q PRet in
  let+ t := am_tt (ask JDefault) (fun a b => ask (JReduce a b)) (fun k => ask (JKey k)) (fun v => ask (JValue v)) jkeyed st
              (jw_op wb (fun x y => ask (JBoth x y))) (tw_op wl (fun e => ask (JLeft e)))
              (tw_op wr (fun e => ask (JRight e))) m right 0 in
  PRet
    match t with
    | JLR r | JL r => (m, r, Self)
    | JR r => (right, r, Right)
    | JN n => (nres_trie n, Other)
    end.
