(** Joint operations with closures that are events; compare Joint.v and
    JointT.v, function by function.  The order of the calls is the code's. *)
From Coq Require Import NArith List Bool.
From Verif Require Import Base Words Flag Bia Node Api Trans Transform Joint JointT Eff EffT.
Import ListNotations.
Open Scope N_scope.

(** * The traversals *)
Section Traverse.
Context {E : Env} {Q : Type} {A : Q -> Type} {K V L W S X R T : Type} {KL : Key L}.
Context (rdef : R) (rd : R -> R -> R).
Context (add : acc S X R -> N -> option (mnode K V) -> option (mnode L W) -> T -> outcome (acc S X R)).
Context (lone : mnode K V -> prog A T) (rone : mnode L W -> prog A T) (done : acc S X R -> outcome T).

(** cnode.rs:495-582, :608-653, :695-742, :791-827. *)
Definition ecc_step (self : bia (mnode K V * (mnode L W -> prog A T))) (right : bia (mnode L W))
  (a : acc S X R) (index : N) : prog A (acc S X R) :=
  let+ ol := lift (bat_bit_index fw self index) in
  let+ or := lift (bat_bit_index fw right index) in
  match ol, or with
  | Ok (l, both), Ok r => let+ t := both r in lift (add a index (Some l) (Some r) t)
  | Ok (l, _), Err _ => let+ t := lone l in lift (add a index (Some l) None t)
  | Err _, Ok r => let+ t := rone r in lift (add a index None (Some r) t)
  | Err _, Err _ => PRet a
  end.

(** cnode.rs:862-941, :993-1037, :1084-1132, :1182-1215 (collision list), :1250-1327,
    :1380-1423, :1470-1513, :1567-1600 (leaf). *)
Definition ecl_step (flag : N) (right : mnode L W) (depth : N) (self : bia (mnode K V * (N -> prog A T)))
  (a : acc S X R) (index : N) : prog A (acc S X R) :=
  let+ ol := lift (bat_bit_index fw self index) in
  let+ bit := lift (unwrap_ok (nth_bit fw index)) in
  match ol with
  | Ok (l, both) =>
      if flag =? bit then let+ t := both (depth + 1) in lift (add a index (Some l) (Some right) t)
      else let+ t := lone l in lift (add a index (Some l) (Some right) t)
  | Err _ =>
      if flag =? bit then let+ t := rone right in lift (add a index None (Some right) t)
      else PRet a
  end.

Context (leaf : lnext K V -> lnext L W -> N -> prog A T).

(** mnode.rs:177-343; the branch case is cnode.rs:842-1613. *)
Fixpoint em_leaf (right : lnext L W) (n : mnode K V) (depth : N) {struct n} : prog A T :=
  match n with
  | MC (BIA bits values extra) =>
      let+ flag := lift (let* flag := flag_new_at_depth (hashk (next_key right)) depth in unwrap flag) in
      let+ a := eloop (ecl_step (fl_flag flag) (next_mnode right) depth
                        (BIA bits (map (fun c => (c, em_leaf right c)) values) extra))
                  (range 0 (max_ones fw)) (acc0 rdef) in
      lift (done a)
  | ML l => leaf (NL l) right depth
  | MS s => leaf (NS s) right depth
  end.

Context (tree_leaf : lnext L W -> mnode K V -> N -> prog A T).
Context (leaf_tree : lnext K V -> mnode L W -> N -> prog A T).
Context (short : option T) (st : strategy).

(** mnode.rs:93-175; branch against branch is cnode.rs:371-840. *)
Fixpoint em_joint (n : mnode K V) (right : mnode L W) (depth : N) {struct n} : prog A T :=
  match n with
  | MC (BIA bits values extra) =>
      match right with
      | MC rb =>
          match short with
          | Some t => PRet t
          | None =>
              let+ a := erun_loop rdef rd st
                          (ecc_step (BIA bits (map (fun c => (c, fun r => em_joint c r (depth + 1))) values) extra) rb) in
              lift (done a)
          end
      | ML r => tree_leaf (NL r) n depth
      | MS r => tree_leaf (NS r) n depth
      end
  | ML l =>
      match right with
      | MC _ => leaf_tree (NL l) right depth
      | ML r => leaf (NL l) (NL r) depth
      | MS r => leaf (NL l) (NS r) depth
      end
  | MS s =>
      match right with
      | MC _ => leaf_tree (NS s) right depth
      | ML r => leaf (NS s) (NL r) depth
      | MS r => leaf (NS s) (NS r) depth
      end
  end.

End Traverse.

(** * One side: collision lists and leaves together *)
Section Next.
Context {E : Env} {Q : Type} {A : Q -> Type} {K V R : Type}.
Context (rd : R -> R -> R).

(** lnode.rs:151 and snode.rs:74, [transform]. *)
Definition en_transform (op : etransform A (K * V) V R) (n : lnext K V) : prog A (tres K V R) :=
  match n with NL l => el_transform rd op l | NS s => es_transform op s end.

(** lnode.rs:178 and snode.rs:86, [transmute]. *)
Definition en_transmute {S X} (op : etransmute A (K * V) S X R) (n : lnext K V) : prog A (nres S X R) :=
  match n with NL l => el_transmute rd op l | NS s => es_transmute op s end.

End Next.

(** * transform_with_transmuted *)
Section TM.
Context {E : Env} {Q : Type} {A : Q -> Type} {K V L W R : Type} {KK : Key K} {KL : Key L}.
Context (rdef : R) (rd : R -> R -> R).
Context (both : etransform A ((K * V) * (L * W)) V R) (lop : etransform A (K * V) V R)
  (rop : etransmute A (L * W) K V R).

(** snode.rs:257-278, lnode.rs:480-508, :753-777: both sides are worked out
    before the flags. *)
Definition etm_apart (this : lnext K V) (right : lnext L W) (depth : N) : prog A (tres K V R) :=
  let+ l := en_transform rd lop this in
  let+ r := en_transmute rd rop right in
  lift
    (let* (lf, rf) := two_flags (next_key this) (next_key right) depth in
     let z := rd (tred l) (nred r) in
     match tout (next_mnode this) l, nnode r with
     | Some a, Some b => let* c := cnode_lift a lf b rf in Ret (TN (NRC c z))
     | Some _, None => Ret (t_with l z)
     | None, _ => Ret (TN (n_with r z))
     end).

(** snode.rs:281-319, [transform_with_transmuted_snode_impl]. *)
Definition etm_s_impl (this : snode K V) (right : L * W) : prog A (tres K V R) :=
  if keqb (s_key this) (fst right) then
    let+ o := etcall both ((s_key this, s_value this), right) in
    PRet
      match o with
      | VUnchanged r => TU r
      | VTransformed v r => TN (NRS (SN (s_key this) v) r)
      | VDropped r => TN (NRZ r)
      end
  else
    let+ l := etcall lop (s_key this, s_value this) in
    let+ r := emcall rop right in
    PRet
      match l, r with
      | VUnchanged lr, KTransmuted rk rv rr => TN (NRL (l_new rk rv (NS this)) (rd lr rr))
      | VUnchanged lr, KDropped rr => TU (rd lr rr)
      | VTransformed lv lr, KTransmuted rk rv rr => TN (NRL (l_new rk rv (NS (SN (s_key this) lv))) (rd lr rr))
      | VTransformed lv lr, KDropped rr => TN (NRS (SN (s_key this) lv) (rd lr rr))
      | VDropped lr, KTransmuted rk rv rr => TN (NRS (SN rk rv) (rd lr rr))
      | VDropped lr, KDropped rr => TN (NRZ (rd lr rr))
      end.

(** lnode.rs:511-539, [transform_with_transmuted_lnode_impl]: the rest of the
    list first (523-531), then this entry (533-536). *)
Fixpoint etm_l_impl (this : lnode K V) (rights : list (L * W)) : prog A (tres K V R * list (L * W)) :=
  let+ (next, rights) :=
    match this with
    | LNL _ _ n _ => etm_l_impl n rights
    | LNS _ _ s _ =>
        match take_key (s_key s) rights with
        | Some (e, rights) => let+ t := etm_s_impl s e in PRet (t, rights)
        | None => let+ t := es_transform lop s in PRet (t, rights)
        end
    end in
  let+ (result, rights) :=
    match take_key (l_key this) rights with
    | Some (e, rights) => let+ o := etcall both ((l_key this, l_value this), e) in PRet (o, rights)
    | None => let+ o := etcall lop (l_key this, l_value this) in PRet (o, rights)
    end in
  PRet (l_transform_result rd this result next, rights).

(** lnode.rs:461-475, the loop over the entries left in [rights]. *)
Fixpoint etm_rest (this : lnode K V) (rights : list (L * W)) (next : tres K V R) : prog A (tres K V R) :=
  match rights with
  | [] => PRet next
  | e :: rights =>
      let+ o := emcall rop e in
      etm_rest this rights
        (match o with
         | KTransmuted rk rv rr => t_cons (NL this) rk rv next (rd rr (tred next))
         | KDropped rr => t_with next (rd rr (tred next))
         end)
  end.

(** lnode.rs:425-509, [transform_with_transmuted_lnode]. *)
Definition etm_lnode (this : lnode K V) (right : lnode L W) (depth : N) : prog A (tres K V R) :=
  if hashk (l_key this) =? hashk (l_key right) then
    let+ rights := lift (rights_loop fuel right right [(l_key right, l_value right)]) in
    let+ (next, rights) := etm_l_impl this rights in
    etm_rest this rights next
  else etm_apart (NL this) (NL right) depth.

(** lnode.rs:780-808, [transform_with_transmuted_snode_impl]: the rest of the
    list first. *)
Fixpoint etm_ls_impl (this : lnode K V) (right : snode L W) : prog A (tres K V R) :=
  if keqb (l_key this) (s_key right) then
    let+ next := en_transform rd lop (l_next this) in
    let+ o := etcall both ((l_key this, l_value this), (s_key right, s_value right)) in
    PRet (l_transform_result rd this o next)
  else
    let+ next :=
      match this with
      | LNL _ _ n _ => etm_ls_impl n right
      | LNS _ _ s _ => etm_s_impl s (s_key right, s_value right)
      end in
    let+ o := etcall lop (l_key this, l_value this) in
    PRet (l_transform_result rd this o next).

(** lnode.rs:732-778, [transform_with_transmuted_snode]. *)
Definition etm_lsnode (this : lnode K V) (right : snode L W) (depth : N) : prog A (tres K V R) :=
  if hashk (l_key this) =? hashk (s_key right) then etm_ls_impl this right
  else etm_apart (NL this) (NS right) depth.

(** snode.rs:237-279, [transform_with_transmuted_snode]. *)
Definition etm_snode (this : snode K V) (right : snode L W) (depth : N) : prog A (tres K V R) :=
  if hashk (s_key this) =? hashk (s_key right) then etm_s_impl this (s_key right, s_value right)
  else etm_apart (NS this) (NS right) depth.

End TM.

(** * transmute_with_transformed *)
Section MT.
Context {E : Env} {Q : Type} {A : Q -> Type} {K V L W R : Type} {KK : Key K} {KL : Key L}.
Context (rdef : R) (rd : R -> R -> R).
Context (both : etransform A ((K * V) * (L * W)) W R) (lop : etransmute A (K * V) L W R)
  (rop : etransform A (L * W) W R).

(** snode.rs:341-360, lnode.rs:831-854. *)
Definition emt_apart (this : lnext K V) (right : lnext L W) (depth : N) : prog A (tres L W R) :=
  let+ l := en_transmute rd lop this in
  let+ r := en_transform rd rop right in
  lift
    (let* (lf, rf) := two_flags (next_key this) (next_key right) depth in
     let z := rd (nred l) (tred r) in
     match nnode l, tout (next_mnode right) r with
     | Some a, Some b => let* c := cnode_lift a lf b rf in Ret (TN (NRC c z))
     | Some _, None => Ret (TN (n_with l z))
     | None, _ => Ret (t_with r z)
     end).

(** snode.rs:363-399, [transmute_with_transformed_snode_impl]. *)
Definition emt_s_impl (this : snode K V) (right : snode L W) : prog A (tres L W R) :=
  if keqb (s_key this) (s_key right) then
    let+ o := etcall both ((s_key this, s_value this), (s_key right, s_value right)) in
    PRet
      match o with
      | VUnchanged r => TU r
      | VTransformed v r => TN (NRS (SN (s_key right) v) r)
      | VDropped r => TN (NRZ r)
      end
  else
    let+ l := emcall lop (s_key this, s_value this) in
    let+ r := etcall rop (s_key right, s_value right) in
    PRet
      match l, r with
      | KTransmuted lk lv lr, VUnchanged rr => TN (NRL (l_new lk lv (NS right)) (rd lr rr))
      | KTransmuted lk lv lr, VTransformed rv rr => TN (NRL (l_new lk lv (NS (SN (s_key right) rv))) (rd lr rr))
      | KTransmuted lk lv lr, VDropped rr => TN (NRS (SN lk lv) (rd lr rr))
      | KDropped lr, VUnchanged rr => TU (rd lr rr)
      | KDropped lr, VTransformed rv rr => TN (NRS (SN (s_key right) rv) (rd lr rr))
      | KDropped lr, VDropped rr => TN (NRZ (rd lr rr))
      end.

(** lnode.rs:857-885, [transmute_with_transformed_snode_impl]. *)
Fixpoint emt_ls_impl (this : lnode K V) (right : snode L W) : prog A (tres L W R) :=
  if keqb (l_key this) (s_key right) then
    let+ next := en_transmute rd lop (l_next this) in
    let+ o := etcall both ((l_key this, l_value this), (s_key right, s_value right)) in
    PRet (TN (mt_hit rd right o next))
  else
    let+ next :=
      match this with
      | LNL _ _ n _ => emt_ls_impl n right
      | LNS _ _ s _ => emt_s_impl s right
      end in
    let+ o := emcall lop (l_key this, l_value this) in
    PRet (mt_miss rd right o next).

(** lnode.rs:810-855, [transmute_with_transformed_snode]. *)
Definition emt_lsnode (this : lnode K V) (right : snode L W) (depth : N) : prog A (tres L W R) :=
  if hashk (l_key this) =? hashk (s_key right) then emt_ls_impl this right
  else emt_apart (NL this) (NS right) depth.

(** snode.rs:321-361, [transmute_with_transformed_snode]. *)
Definition emt_snode (this : snode K V) (right : snode L W) (depth : N) : prog A (tres L W R) :=
  if hashk (s_key this) =? hashk (s_key right) then emt_s_impl this right
  else emt_apart (NS this) (NS right) depth.

End MT.

(** * transmute_with_transmuted *)
Section MM.
Context {E : Env} {Q : Type} {A : Q -> Type} {K V L W S X R : Type} {KK : Key K} {KL : Key L} {KS : Key S}.
Context (rdef : R) (rd : R -> R -> R).
Context (both : etransmute A ((K * V) * (L * W)) S X R) (lop : etransmute A (K * V) S X R)
  (rop : etransmute A (L * W) S X R).

(** snode.rs:452-469, lnode.rs:599-622, :911-933. *)
Definition emm_apart (this : lnext K V) (right : lnext L W) (depth : N) : prog A (nres S X R) :=
  let+ l := en_transmute rd lop this in
  let+ r := en_transmute rd rop right in
  lift
    (let* (lf, rf) := two_flags (next_key this) (next_key right) depth in
     let z := rd (nred l) (nred r) in
     match nnode l, nnode r with
     | Some a, Some b => let* c := cnode_lift a lf b rf in Ret (NRC c z)
     | Some _, None => Ret (n_with l z)
     | None, _ => Ret (n_with r z)
     end).

(** snode.rs:472-506, [transmute_with_transmuted_values]. *)
Definition emm_values (this : K * V) (right : L * W) : prog A (nres S X R) :=
  if keqb (fst this) (fst right) then let+ o := emcall both (this, right) in PRet (k_nres o)
  else
    let+ l := emcall lop this in
    let+ r := emcall rop right in
    PRet
      match l, r with
      | KTransmuted lk lv lr, KTransmuted rk rv rr => NRL (l_new lk lv (NS (SN rk rv))) (rd lr rr)
      | KTransmuted lk lv lr, KDropped rr => NRS (SN lk lv) (rd lr rr)
      | KDropped lr, KTransmuted rk rv rr => NRS (SN rk rv) (rd lr rr)
      | KDropped lr, KDropped rr => NRZ (rd lr rr)
      end.

(** lnode.rs:625-657, [transmute_with_transmuted_lnode_impl]. *)
Fixpoint emm_l_impl (this : lnode K V) (rights : list (L * W)) : prog A (nres S X R * list (L * W)) :=
  let+ (next, rights) :=
    match this with
    | LNL _ _ n _ => emm_l_impl n rights
    | LNS _ _ s _ =>
        match take_key (s_key s) rights with
        | Some (e, rights) => let+ t := emm_values (s_key s, s_value s) e in PRet (t, rights)
        | None => let+ t := es_transmute lop s in PRet (t, rights)
        end
    end in
  let+ (result, rights) :=
    match take_key (l_key this) rights with
    | Some (e, rights) => let+ o := emcall both ((l_key this, l_value this), e) in PRet (o, rights)
    | None => let+ o := emcall lop (l_key this, l_value this) in PRet (o, rights)
    end in
  PRet (l_transmute_result rd result next, rights).

(** lnode.rs:582-594, the loop over the entries left in [rights]. *)
Fixpoint emm_rest (rights : list (L * W)) (next : nres S X R) : prog A (nres S X R) :=
  match rights with
  | [] => PRet next
  | e :: rights =>
      let+ o := emcall rop e in
      emm_rest rights
        (match o with
         | KTransmuted rk rv rr => n_cons rk rv next (rd rr (nred next))
         | KDropped rr => n_with next (rd rr (nred next))
         end)
  end.

(** lnode.rs:541-623, [transmute_with_transmuted_lnode]. *)
Definition emm_lnode (this : lnode K V) (right : lnode L W) (depth : N) : prog A (nres S X R) :=
  if hashk (l_key this) =? hashk (l_key right) then
    let+ rights := lift (rights_loop fuel right right [(l_key right, l_value right)]) in
    let+ (next, rights) := emm_l_impl this rights in
    emm_rest rights next
  else emm_apart (NL this) (NL right) depth.

(** lnode.rs:936-970, [transmute_with_transmuted_snode_impl]. *)
Fixpoint emm_ls_impl (this : lnode K V) (right : snode L W) : prog A (nres S X R) :=
  if keqb (l_key this) (s_key right) then
    let+ next := en_transmute rd lop (l_next this) in
    let+ o := emcall both ((l_key this, l_value this), (s_key right, s_value right)) in
    PRet (l_transmute_result rd o next)
  else
    let+ next :=
      match this with
      | LNL _ _ n _ => emm_ls_impl n right
      | LNS _ _ s _ => emm_values (s_key s, s_value s) (s_key right, s_value right)
      end in
    let+ o := emcall lop (l_key this, l_value this) in
    PRet (l_transmute_result rd o next).

(** lnode.rs:887-934, [transmute_with_transmuted_snode]. *)
Definition emm_lsnode (this : lnode K V) (right : snode L W) (depth : N) : prog A (nres S X R) :=
  if hashk (l_key this) =? hashk (s_key right) then emm_ls_impl this right
  else emm_apart (NL this) (NS right) depth.

(** snode.rs:427-470, [transmute_with_transmuted_snode]. *)
Definition emm_snode (this : snode K V) (right : snode L W) (depth : N) : prog A (nres S X R) :=
  if hashk (s_key this) =? hashk (s_key right) then
    emm_values (s_key this, s_value this) (s_key right, s_value right)
  else emm_apart (NS this) (NS right) depth.

End MM.

(** * transform_with_transformed *)
Section TT.
Context {E : Env} {Q : Type} {A : Q -> Type} {K V R : Type} {KK : Key K}.
Context (rdef : R) (rd : R -> R -> R).
Context (both : ejoint A (K * V) V R) (lop : etransform A (K * V) V R) (rop : etransform A (K * V) V R).

(** snode.rs:170-193, lnode.rs:351-383, :677-703. *)
Definition ett_apart (this right : lnext K V) (depth : N) : prog A (jres K V R) :=
  let+ l := en_transform rd lop this in
  let+ r := en_transform rd rop right in
  lift
    (let* (lf, rf) := two_flags (next_key this) (next_key right) depth in
     let z := rd (tred l) (tred r) in
     match tout (next_mnode this) l, tout (next_mnode right) r with
     | Some a, Some b => let* c := cnode_lift a lf b rf in Ret (JN (NRC c z))
     | Some _, None => Ret (t_left (t_with l z))
     | None, _ => Ret (t_right (t_with r z))
     end).

(** snode.rs:196-235, [transform_with_transformed_snode_impl]. *)
Definition ett_s_impl (this right : snode K V) : prog A (jres K V R) :=
  if keqb (s_key this) (s_key right) then
    let+ o := ejcall both (s_key this, s_value this) (s_key right, s_value right) in
    PRet
      match o with
      | BUnchangedLR r => JLR r
      | BUnchangedL r => JL r
      | BUnchangedR r => JR r
      | BTransformed v r => JN (NRS (SN (s_key this) v) r)
      | BDropped r => JN (NRZ r)
      end
  else
    let+ l := etcall lop (s_key this, s_value this) in
    let+ r := etcall rop (s_key right, s_value right) in
    PRet
      match l, r with
      | VUnchanged lr, VUnchanged rr => JN (NRL (l_new (s_key right) (s_value right) (NS this)) (rd lr rr))
      | VUnchanged lr, VTransformed rv rr => JN (NRL (l_new (s_key right) rv (NS this)) (rd lr rr))
      | VUnchanged lr, VDropped rr => JL (rd lr rr)
      | VTransformed lv lr, VUnchanged rr => JN (NRL (l_new (s_key this) lv (NS right)) (rd lr rr))
      | VTransformed lv lr, VTransformed rv rr => JN (NRL (l_new (s_key right) rv (NS (SN (s_key this) lv))) (rd lr rr))
      | VTransformed lv lr, VDropped rr => JN (NRS (SN (s_key this) lv) (rd lr rr))
      | VDropped lr, VUnchanged rr => JR (rd lr rr)
      | VDropped lr, VTransformed rv rr => JN (NRS (SN (s_key right) rv) (rd lr rr))
      | VDropped lr, VDropped rr => JN (NRZ (rd lr rr))
      end.

(** lnode.rs:386-423, [transform_with_transformed_lnode_impl]. *)
Fixpoint ett_l_impl (this : lnode K V) (rights : list (K * V)) : prog A (jres K V R * list (K * V)) :=
  let+ (nr, that) :=
    match this with
    | LNL _ _ n _ => let+ nr := ett_l_impl n rights in PRet (nr, None)
    | LNS _ _ s _ =>
        match take_key (s_key s) rights with
        | Some (e, rights) => let+ t := ett_s_impl s (SN (fst e) (snd e)) in PRet ((t, rights), Some e)
        | None => let+ t := es_transform lop s in PRet ((t_left t, rights), None)
        end
    end in
  let (next, rights) := (nr : jres K V R * list (K * V)) in
  let+ (result, rights) :=
    match take_key (l_key this) rights with
    | Some (e, rights) => let+ o := ejcall both (l_key this, l_value this) e in PRet (o, rights)
    | None => let+ o := etcall lop (l_key this, l_value this) in PRet (v_left o, rights)
    end in
  let+ t := lift (jj rd this result that next) in
  PRet (t, rights).

(** lnode.rs:323-345, the loop over the entries left in [rights]; [right_op] is
    called (323) before [next] is looked at. *)
Fixpoint ett_rest (this : lnode K V) (rights : list (K * V)) (next : jres K V R) : prog A (jres K V R) :=
  match rights with
  | [] => PRet next
  | e :: rights =>
      let+ o := etcall rop e in
      let+ next :=
        lift
        (match o, next with
         | _, JR _ => Panic
         | VUnchanged rr, JN n => Ret (JN (n_cons (fst e) (snd e) n (rd rr (nred n))))
         | VUnchanged rr, JLR rn | VUnchanged rr, JL rn =>
             Ret (JN (NRL (l_new (fst e) (snd e) (NL this)) (rd rr rn)))
         | VTransformed rv rr, JN n => Ret (JN (n_cons (fst e) rv n (rd rr (nred n))))
         | VTransformed rv rr, JLR rn | VTransformed rv rr, JL rn =>
             Ret (JN (NRL (l_new (fst e) rv (NL this)) (rd rr rn)))
         | VDropped rr, JN n => Ret (JN (n_with n (rd rr (nred n))))
         | VDropped rr, JLR rn | VDropped rr, JL rn => Ret (JL (rd rr rn))
         end) in
      ett_rest this rights next
  end.

(** lnode.rs:292-384, [transform_with_transformed_lnode]. *)
Definition ett_lnode (this right : lnode K V) (depth : N) : prog A (jres K V R) :=
  if hashk (l_key this) =? hashk (l_key right) then
    let+ rights := lift (rights_loop fuel right right [(l_key right, l_value right)]) in
    let+ (next, rights) := ett_l_impl this rights in
    ett_rest this rights next
  else ett_apart (NL this) (NL right) depth.

(** lnode.rs:706-730, [transform_with_transformed_snode_impl]. *)
Fixpoint ett_ls_impl (this : lnode K V) (right : snode K V) : prog A (jres K V R) :=
  if keqb (l_key this) (s_key right) then
    let+ next := en_transform rd lop (l_next this) in
    let+ o := ejcall both (l_key this, l_value this) (s_key right, s_value right) in
    PRet (jt rd this o right next)
  else
    let+ next :=
      match this with
      | LNL _ _ n _ => ett_ls_impl n right
      | LNS _ _ s _ => ett_s_impl s right
      end in
    let+ o := etcall lop (l_key this, l_value this) in
    PRet (tj rd this o right next).

(** lnode.rs:659-704, [transform_with_transformed_snode]. *)
Definition ett_lsnode (this : lnode K V) (right : snode K V) (depth : N) : prog A (jres K V R) :=
  if hashk (l_key this) =? hashk (s_key right) then ett_ls_impl this right
  else ett_apart (NL this) (NS right) depth.

(** snode.rs:154-194, [transform_with_transformed_snode]. *)
Definition ett_snode (this right : snode K V) (depth : N) : prog A (jres K V R) :=
  if hashk (s_key this) =? hashk (s_key right) then ett_s_impl this right
  else ett_apart (NS this) (NS right) depth.

(** cnode.rs:380-430, the early returns of branch against branch. *)
Definition ett_short : option (jres K V R) :=
  match both, lop, rop with
  | EJUnchangedLR r, EUnchanged _, ERemoved _ => Some (JL r)
  | EJUnchangedLR r, ERemoved _, EUnchanged _ => Some (JR r)
  | EJUnchangedL r, EUnchanged _, ERemoved _ => Some (JL r)
  | EJUnchangedR r, ERemoved _, EUnchanged _ => Some (JR r)
  | EJRemoved r, ERemoved _, ERemoved _ => Some (JN (NRZ r))
  | _, _, _ => None
  end.

End TT.

(** * The families *)
Section TMFamily.
Context {E : Env} {Q : Type} {A : Q -> Type} {K V L W R : Type} {KK : Key K} {KL : Key L}.
Context (rdef : R) (rd : R -> R -> R) (st : strategy).
Context (both : etransform A ((K * V) * (L * W)) V R) (lop : etransform A (K * V) V R)
  (rop : etransmute A (L * W) K V R).

(** snode.rs:115-133, lnode.rs:224-243, mnode.rs:196-216, :280-300. *)
Definition etm_leaf (this : lnext K V) (right : lnext L W) (depth : N) : prog A (tres K V R) :=
  match this, right with
  | NL l, NL r => etm_lnode rd both lop rop l r depth
  | NL l, NS r => etm_lsnode rd both lop rop l r depth
  | NS s, NL r => emt_lsnode rd (etflip both) rop lop r s depth
  | NS s, NS r => etm_snode rd both lop rop s r depth
  end.

(** One side only. *)
Definition etm_lone (n : mnode K V) : prog A (tres K V R) := em_transform rdef rd st lop n.
Definition etm_rone (n : mnode L W) : prog A (tres K V R) :=
  let+ x := em_transmute rdef rd rop n in PRet (TN x).

(** cnode.rs:968-1060 and :1355-1446. *)
Definition etm_tree_leaf (right : lnext L W) : mnode K V -> N -> prog A (tres K V R) :=
  em_leaf rdef (tm_add rd (match right with NL _ => false | NS _ => true end)) etm_lone etm_rone tm_done etm_leaf right.

End TMFamily.

Section MTFamily.
Context {E : Env} {Q : Type} {A : Q -> Type} {K V L W R : Type} {KK : Key K} {KL : Key L}.
Context (rdef : R) (rd : R -> R -> R) (st : strategy).
Context (both : etransform A ((K * V) * (L * W)) W R) (lop : etransmute A (K * V) L W R)
  (rop : etransform A (L * W) W R).

(** snode.rs:135-152, lnode.rs:245-264, mnode.rs:218-237, :302-321. *)
Definition emt_leaf (this : lnext K V) (right : lnext L W) (depth : N) : prog A (tres L W R) :=
  match this, right with
  | NL l, NL r => etm_lnode rd (etflip both) rop lop r l depth
  | NL l, NS r => emt_lsnode rd both lop rop l r depth
  | NS s, NL r => etm_lsnode rd (etflip both) rop lop r s depth
  | NS s, NS r => emt_snode rd both lop rop s r depth
  end.

(** One side only. *)
Definition emt_lone (n : mnode K V) : prog A (tres L W R) :=
  let+ x := em_transmute rdef rd lop n in PRet (TN x).
Definition emt_rone (n : mnode L W) : prog A (tres L W R) := em_transform rdef rd st rop n.

(** cnode.rs:1062-1150 and :1448-1535. *)
Definition emt_tree_leaf (right : lnext L W) : mnode K V -> N -> prog A (tres L W R) :=
  em_leaf rdef (mt_add rd (match right with NL _ => false | NS _ => true end)) emt_lone emt_rone mt_done emt_leaf right.

End MTFamily.

Section MMFamily.
Context {E : Env} {Q : Type} {A : Q -> Type} {K V L W S X R : Type} {KK : Key K} {KL : Key L} {KS : Key S}.
Context (rdef : R) (rd : R -> R -> R).
Context (both : etransmute A ((K * V) * (L * W)) S X R) (lop : etransmute A (K * V) S X R)
  (rop : etransmute A (L * W) S X R).

(** snode.rs:401-425, lnode.rs:266-290, mnode.rs:239-259, :323-343. *)
Definition emm_leaf (this : lnext K V) (right : lnext L W) (depth : N) : prog A (nres S X R) :=
  match this, right with
  | NL l, NL r => emm_lnode rd both lop rop l r depth
  | NL l, NS r => emm_lsnode rd both lop rop l r depth
  | NS s, NL r => emm_lsnode rd (emflip both) rop lop r s depth
  | NS s, NS r => emm_snode rd both lop rop s r depth
  end.

(** cnode.rs:1152-1228 and :1537-1613. *)
Definition emm_tree_leaf (right : lnext L W) : mnode K V -> N -> prog A (nres S X R) :=
  em_leaf rdef (mm_add rd) (em_transmute rdef rd lop) (em_transmute rdef rd rop) finish emm_leaf right.

End MMFamily.

Section TTFamily.
Context {E : Env} {Q : Type} {A : Q -> Type} {K V R : Type} {KK : Key K}.
Context (rdef : R) (rd : R -> R -> R) (st : strategy).
Context (both : ejoint A (K * V) V R) (lop : etransform A (K * V) V R) (rop : etransform A (K * V) V R).

(** snode.rs:96-111, lnode.rs:208-222, mnode.rs:177-193, :261-277. *)
Definition ett_leaf (this right : lnext K V) (depth : N) : prog A (jres K V R) :=
  match this, right with
  | NL l, NL r => ett_lnode rd both lop rop l r depth
  | NL l, NS r => ett_lsnode rd both lop rop l r depth
  | NS s, NL r => let+ t := ett_lsnode rd (ejflip both) rop lop r s depth in PRet (jres_flip t)
  | NS s, NS r => ett_snode rd both lop rop s r depth
  end.

(** One side only: cnode.rs:505-512, :517-524, :872-880, :884-889, :1260-1268, :1272-1276. *)
Definition ett_lone (n : mnode K V) : prog A (jres K V R) := let+ t := em_transform rdef rd st lop n in PRet (t_left t).
Definition ett_rone (n : mnode K V) : prog A (jres K V R) := let+ t := em_transform rdef rd st rop n in PRet (t_right t).

(** cnode.rs:842-966 and :1230-1353. *)
Definition ett_tree_leaf (right : lnext K V) : mnode K V -> N -> prog A (jres K V R) :=
  em_leaf rdef (tt_add rd) ett_lone ett_rone tt_done ett_leaf right.

End TTFamily.

Section Joint.
Context {E : Env} {Q : Type} {A : Q -> Type} {K V L W R : Type} {KK : Key K} {KL : Key L}.
Context (rdef : R) (rd : R -> R -> R) (st : strategy).

(** mnode.rs:112-133; cnode.rs:585-673. *)
Definition em_tm (both : etransform A ((K * V) * (L * W)) V R) (lop : etransform A (K * V) V R)
  (rop : etransmute A (L * W) K V R) : mnode K V -> mnode L W -> N -> prog A (tres K V R) :=
  em_joint rdef rd (tm_add rd true) (etm_lone rdef rd st lop) (etm_rone rdef rd rop) tm_done
    (etm_leaf rd both lop rop) (etm_tree_leaf rdef rd st both lop rop)
    (emt_tree_leaf rdef rd st (etflip both) rop lop) None Sequential.

(** mnode.rs:135-154; cnode.rs:675-764. *)
Definition em_mt (both : etransform A ((K * V) * (L * W)) W R) (lop : etransmute A (K * V) L W R)
  (rop : etransform A (L * W) W R) : mnode K V -> mnode L W -> N -> prog A (tres L W R) :=
  em_joint rdef rd (mt_add rd true) (emt_lone rdef rd lop) (emt_rone rdef rd st rop) mt_done
    (emt_leaf rd both lop rop) (emt_tree_leaf rdef rd st both lop rop)
    (etm_tree_leaf rdef rd st (etflip both) rop lop) None Sequential.

(** mnode.rs:156-175; cnode.rs:766-840. *)
Definition em_mm {S X} {KS : Key S} (both : etransmute A ((K * V) * (L * W)) S X R) (lop : etransmute A (K * V) S X R)
  (rop : etransmute A (L * W) S X R) : mnode K V -> mnode L W -> N -> prog A (nres S X R) :=
  em_joint rdef rd (mm_add rd) (em_transmute rdef rd lop) (em_transmute rdef rd rop) finish
    (emm_leaf rd both lop rop) (emm_tree_leaf rdef rd both lop rop)
    (emm_tree_leaf rdef rd (emflip both) rop lop) None Sequential.

(** * The public operations *)

(** hash_trie.rs:121-143, map.rs:182-199. *)
Definition emap_tm both lop rop (m : trie K V) (right : trie L W) : prog A (trie K V * R * origin) :=
  let+ t := em_tm both lop rop m right 0 in
  PRet
    match t with
    | TU r => (m, r, Self)
    | TN n => (nres_trie n, Other)
    end.

(** hash_trie.rs:145-167, map.rs:225-242. *)
Definition emap_mt both lop rop (m : trie K V) (right : trie L W) : prog A (trie L W * R * origin) :=
  let+ t := em_mt both lop rop m right 0 in
  PRet
    match t with
    | TU r => (right, r, Right)
    | TN n => (nres_trie n, Other)
    end.

(** hash_trie.rs:169-195, map.rs:245-265. *)
Definition emap_mm {S X} {KS : Key S} (both : etransmute A ((K * V) * (L * W)) S X R) lop rop
  (m : trie K V) (right : trie L W) : prog A (trie S X * R) :=
  let+ n := em_mm both lop rop m right 0 in
  PRet (nres_trie n).

End Joint.

Section TTJoint.
Context {E : Env} {Q : Type} {A : Q -> Type} {K V R : Type} {KK : Key K}.
Context (rdef : R) (rd : R -> R -> R) (st : strategy).

(** Leaf against branch: snode.rs:106, lnode.rs:218. *)
Definition ett_leaf_tree (both : ejoint A (K * V) V R) (lop rop : etransform A (K * V) V R)
  (this : lnext K V) (right : mnode K V) (depth : N) : prog A (jres K V R) :=
  let+ t := ett_tree_leaf rdef rd st (ejflip both) rop lop this right depth in PRet (jres_flip t).

(** mnode.rs:93-109, cnode.rs:285-301, :371-583. *)
Definition em_tt (both : ejoint A (K * V) V R) (lop rop : etransform A (K * V) V R)
  : mnode K V -> mnode K V -> N -> prog A (jres K V R) :=
  em_joint rdef rd (tt_add rd) (ett_lone rdef rd st lop) (ett_rone rdef rd st rop) tt_done
    (ett_leaf rd both lop rop) (ett_tree_leaf rdef rd st both lop rop) (ett_leaf_tree both lop rop)
    (ett_short both lop rop) st.

(** hash_trie.rs:101-119, map.rs:144-156. *)
Definition emap_tt both lop rop (m right : trie K V) : prog A (trie K V * R * origin) :=
  let+ t := em_tt both lop rop m right 0 in
  PRet
    match t with
    | JLR r | JL r => (m, r, Self)
    | JR r => (right, r, Right)
    | JN n => (nres_trie n, Other)
    end.

End TTJoint.
