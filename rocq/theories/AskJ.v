(** Joint operations when no code of the client is a function.

    Compare Joint.v and EffJ.v, function by function.  EffJ.v made the closures
    events.  Here so are [reduce_op], [ReduceT::default], [Clone] of keys and
    values, [==] of keys in both directions and hashing a key.  The order of the
    calls is the code's.  Not events: [Clone] of the closures, [Drop], and
    [Clone] of a constant the client passed (transformations.rs:166-167, :357). *)
From Coq Require Import NArith List Bool.
From Verif Require Import Base Words Flag Bia Node Api Trans Transform Joint Eff EffApi Ask AskT.
Import ListNotations.
Open Scope N_scope.

(** * The traversals *)
Section Traverse.
Context {E : Env} {Q : Type} {A : Q -> Type} {K V L W S X R T : Type}.
Context (def : prog A R) (red : R -> R -> prog A R).
Context (add : acc S X R -> N -> option (mnode K V) -> option (mnode L W) -> T -> prog A (acc S X R)).
Context (lone : mnode K V -> prog A T) (rone : mnode L W -> prog A T) (done : acc S X R -> outcome T).

(** cnode.rs:495-582, :608-653, :695-742, :791-827. *)
Definition acc_step (self : bia (mnode K V * (mnode L W -> prog A T))) (right : bia (mnode L W))
  (a : acc S X R) (index : N) : prog A (acc S X R) :=
  let+ ol := lift (bat_bit_index fw self index) in
  let+ or := lift (bat_bit_index fw right index) in
  match ol, or with
  | Ok (l, both), Ok r => let+ t := both r in add a index (Some l) (Some r) t
  | Ok (l, _), Err _ => let+ t := lone l in add a index (Some l) None t
  | Err _, Ok r => let+ t := rone r in add a index None (Some r) t
  | Err _, Err _ => PRet a
  end.

(** cnode.rs:862-941, :993-1037, :1084-1132, :1182-1215 (collision list), :1250-1327,
    :1380-1423, :1470-1513, :1567-1600 (leaf). *)
Definition acl_step (flag : N) (right : mnode L W) (depth : N) (self : bia (mnode K V * (N -> prog A T)))
  (a : acc S X R) (index : N) : prog A (acc S X R) :=
  let+ ol := lift (bat_bit_index fw self index) in
  let+ bit := lift (unwrap_ok (nth_bit fw index)) in
  match ol with
  | Ok (l, both) =>
      if flag =? bit then let+ t := both (depth + 1) in add a index (Some l) (Some right) t
      else let+ t := lone l in add a index (Some l) (Some right) t
  | Err _ =>
      if flag =? bit then let+ t := rone right in add a index None (Some right) t
      else PRet a
  end.

(** [M::default().hash(right.key())]. *)
Context (hash : L -> prog A word).
Context (leaf : lnext K V -> lnext L W -> N -> prog A T).

(** mnode.rs:177-343; the branch case is cnode.rs:842-1613.  The key is hashed at
    every branch, before [ReduceT::default()], e.g. cnode.rs:853-860. *)
Fixpoint am_leaf (right : lnext L W) (n : mnode K V) (depth : N) {struct n} : prog A T :=
  match n with
  | MC (BIA bits values extra) =>
      let+ h := hash (next_key right) in
      let+ flag := lift (let* flag := flag_new_at_depth (proj1_sig (h : word)) depth in unwrap flag) in
      let+ a := aloop def (acl_step (fl_flag flag) (next_mnode right) depth
                             (BIA bits (map (fun c => (c, am_leaf right c)) values) extra))
                  (range 0 (max_ones fw)) in
      lift (done a)
  | ML l => leaf (NL l) right depth
  | MS s => leaf (NS s) right depth
  end.

Context (tree_leaf : lnext L W -> mnode K V -> N -> prog A T).
Context (leaf_tree : lnext K V -> mnode L W -> N -> prog A T).

(** mnode.rs:93-175; branch against branch is cnode.rs:371-840.  No early return and
    no strategy here: those are of transform_with_transformed only. *)
Fixpoint am_joint (n : mnode K V) (right : mnode L W) (depth : N) {struct n} : prog A T :=
  match n with
  | MC (BIA bits values extra) =>
      match right with
      | MC rb =>
          let+ a := aloop def (acc_step (BIA bits (map (fun c => (c, fun r => am_joint c r (depth + 1))) values) extra) rb)
                      (range 0 (max_ones fw)) in
          lift (done a)
      | ML r => tree_leaf (NL r) n depth
      | MS r => tree_leaf (NS r) n depth
      end
  | ML l =>
      match right with
      | MC _ => leaf_tree (NL l) right depth
      | ML r => leaf (NL l) (NL r) depth
      | MS r => leaf (NL l) (NS r) depth
      end
  | MS s =>
      match right with
      | MC _ => leaf_tree (NS s) right depth
      | ML r => leaf (NS s) (NL r) depth
      | MS r => leaf (NS s) (NS r) depth
      end
  end.

End Traverse.

(** * Vectors *)
Section Vectors.
Context {Q : Type} {A : Q -> Type}.

(** [Iterator::position]: stops at the first "yes". *)
Fixpoint aposition {B} (p : B -> prog A bool) (l : list B) : prog A (option nat) :=
  match l with
  | [] => PRet None
  | b :: l' =>
      let+ yes := p b in
      if (yes : bool) then PRet (Some O) else let+ o := aposition p l' in PRet (option_map Datatypes.S o)
  end.

(** [rights.iter().position(|kv| key == kv.0).map(|i| rights.swap_remove(i))],
    e.g. lnode.rs:528; [eq] is [key == _]. *)
Definition atake_key {L W} (eq : L -> prog A bool) (rights : list (L * W)) : prog A (option ((L * W) * list (L * W))) :=
  let+ o := aposition (fun e => eq (fst e)) rights in
  PRet match o with Some i => swap_remove i rights | None => None end.

End Vectors.

(** * One side: collision lists and leaves together *)
Section Next.
Context {E : Env} {Q : Type} {A : Q -> Type} {K V R : Type}.
Context (red : R -> R -> prog A R) (ck : K -> prog A K) (cv : V -> prog A V).

(** lnode.rs:151 and snode.rs:74, [transform]. *)
Definition an_transform (op : etransform A (K * V) V R) (n : lnext K V) : prog A (tres K V R) :=
  match n with NL l => al_transform red ck cv op l | NS s => as_transform ck op s end.

(** lnode.rs:178 and snode.rs:86, [transmute]. *)
Definition an_transmute {S X} (op : etransmute A (K * V) S X R) (n : lnext K V) : prog A (nres S X R) :=
  match n with NL l => al_transmute red op l | NS s => as_transmute op s end.

(** Both flags, e.g. lnode.rs:484-485; the hashes were asked for before. *)
Definition aflags (h h' : word) (depth : N) : outcome (Flag * Flag) :=
  let* lf := flag_new_at_depth (proj1_sig h) depth in
  let* lf := unwrap lf in
  let* rf := flag_new_at_depth (proj1_sig h') depth in
  let* rf := unwrap rf in
  Ret (lf, rf).

(** Two hashes compared, e.g. lnode.rs:438-441. *)
Definition same_hash (h h' : word) : bool := proj1_sig h =? proj1_sig h'.

(** Two leaves in one branch, the reductions combined after, e.g. lnode.rs:489-507. *)
Definition apair (a : mnode K V) (lf : Flag) (b : mnode K V) (rf : Flag) (x y : R) : prog A (nres K V R) :=
  let+ c := lift (cnode_lift a lf b rf) in
  let+ z := red x y in
  PRet (NRC c z).

End Next.

(** What the crate asks of keys: hashes, and [==] in both directions. *)
Record keyed {E : Env} {Q : Type} (A : Q -> Type) (K L : Type) : Type := Keyed {
  ky_hash : K -> prog A word;
  ky_hash' : L -> prog A word;
  ky_eq : K -> L -> prog A bool;
  ky_eq' : L -> K -> prog A bool
}.
Arguments Keyed {E Q A K L}.
Arguments ky_hash {E Q A K L}.
Arguments ky_hash' {E Q A K L}.
Arguments ky_eq {E Q A K L}.
Arguments ky_eq' {E Q A K L}.

(** The same seen from the other map. *)
Definition ky_flip {E : Env} {Q : Type} {A : Q -> Type} {K L} (ky : keyed A K L) : keyed A L K :=
  Keyed (ky_hash' ky) (ky_hash ky) (ky_eq' ky) (ky_eq ky).

(** * transform_with_transmuted *)
Section TM.
Context {E : Env} {Q : Type} {A : Q -> Type} {K V L W R : Type}.
Context (red : R -> R -> prog A R) (ck : K -> prog A K) (cv : V -> prog A V) (ky : keyed A K L).
Context (both : etransform A ((K * V) * (L * W)) V R) (lop : etransform A (K * V) V R)
  (rop : etransmute A (L * W) K V R).

(** snode.rs:257-278, lnode.rs:480-508, :753-777: both sides are worked out before the
    flags. *)
Definition atm_apart (this : lnext K V) (right : lnext L W) (h h' : word) (depth : N) : prog A (tres K V R) :=
  let+ l := an_transform red ck cv lop this in
  let+ r := an_transmute red rop right in
  let+ (lf, rf) := lift (aflags h h' depth) in
  match tout (next_mnode this) l, nnode r with
  | Some a, Some b => let+ n := apair red a lf b rf (tred l) (nred r) in PRet (TN n)
  | Some _, None => let+ z := red (tred l) (nred r) in PRet (t_with l z)
  | None, _ => let+ z := red (tred l) (nred r) in PRet (TN (n_with r z))
  end.

(** snode.rs:281-319, [transform_with_transmuted_snode_impl]. *)
Definition atm_s_impl (this : snode K V) (right : L * W) : prog A (tres K V R) :=
  let+ b := ky_eq ky (s_key this) (fst right) in
  if (b : bool) then
    let+ o := etcall both ((s_key this, s_value this), right) in
    match o with
    | VUnchanged r => PRet (TU r)
    | VTransformed v r => let+ k := ck (s_key this) in PRet (TN (NRS (SN k v) r))
    | VDropped r => PRet (TN (NRZ r))
    end
  else
    let+ l := etcall lop (s_key this, s_value this) in
    let+ r := emcall rop right in
    match l, r with
    | VUnchanged lr, KTransmuted rk rv rr => let+ z := red lr rr in PRet (TN (NRL (l_new rk rv (NS this)) z))
    | VUnchanged lr, KDropped rr => let+ z := red lr rr in PRet (TU z)
    | VTransformed lv lr, KTransmuted rk rv rr =>
        let+ k := ck (s_key this) in
        let+ z := red lr rr in PRet (TN (NRL (l_new rk rv (NS (SN k lv))) z))
    | VTransformed lv lr, KDropped rr =>
        let+ k := ck (s_key this) in
        let+ z := red lr rr in PRet (TN (NRS (SN k lv) z))
    | VDropped lr, KTransmuted rk rv rr => let+ z := red lr rr in PRet (TN (NRS (SN rk rv) z))
    | VDropped lr, KDropped rr => let+ z := red lr rr in PRet (TN (NRZ z))
    end.

(** lnode.rs:511-539, [transform_with_transmuted_lnode_impl]: the rest of the list first
    (523-531), then this entry (533-536). *)
Fixpoint atm_l_impl (this : lnode K V) (rights : list (L * W)) : prog A (tres K V R * list (L * W)) :=
  let+ (next, rights) :=
    match this with
    | LNL _ _ n _ => atm_l_impl n rights
    | LNS _ _ s _ =>
        let+ o := atake_key (ky_eq ky (s_key s)) rights in
        match o with
        | Some (e, rights) => let+ t := atm_s_impl s e in PRet (t, rights)
        | None => let+ t := as_transform ck lop s in PRet (t, rights)
        end
    end in
  let+ o := atake_key (ky_eq ky (l_key this)) rights in
  let+ (result, rights) :=
    match o with
    | Some (e, rights) => let+ o := etcall both ((l_key this, l_value this), e) in PRet (o, rights)
    | None => let+ o := etcall lop (l_key this, l_value this) in PRet (o, rights)
    end in
  let+ t := al_transform_result red ck cv this result next in
  PRet (t, rights).

(** lnode.rs:461-475, the loop over the entries left in [rights]. *)
Fixpoint atm_rest (this : lnode K V) (rights : list (L * W)) (next : tres K V R) : prog A (tres K V R) :=
  match rights with
  | [] => PRet next
  | e :: rights =>
      let+ o := emcall rop e in
      let+ next :=
        match o with
        | KTransmuted rk rv rr => let+ z := red rr (tred next) in PRet (t_cons (NL this) rk rv next z)
        | KDropped rr => let+ z := red rr (tred next) in PRet (t_with next z)
        end in
      atm_rest this rights next
  end.

(** lnode.rs:425-509, [transform_with_transmuted_lnode]. *)
Definition atm_lnode (this : lnode K V) (right : lnode L W) (depth : N) : prog A (tres K V R) :=
  let+ h := ky_hash ky (l_key this) in
  let+ h' := ky_hash' ky (l_key right) in
  if same_hash h h' then
    let+ rights := lift (rights_loop fuel right right [(l_key right, l_value right)]) in
    let+ (next, rights) := atm_l_impl this rights in
    atm_rest this rights next
  else atm_apart (NL this) (NL right) h h' depth.

(** lnode.rs:780-808, [transform_with_transmuted_snode_impl]: the rest of the list first;
    transform_with_transformed_result (1056-1084) is transform_result again. *)
Fixpoint atm_ls_impl (this : lnode K V) (right : snode L W) : prog A (tres K V R) :=
  let+ b := ky_eq ky (l_key this) (s_key right) in
  if (b : bool) then
    let+ next := an_transform red ck cv lop (l_next this) in
    let+ o := etcall both ((l_key this, l_value this), (s_key right, s_value right)) in
    al_transform_result red ck cv this o next
  else
    let+ next :=
      match this with
      | LNL _ _ n _ => atm_ls_impl n right
      | LNS _ _ s _ => atm_s_impl s (s_key right, s_value right)
      end in
    let+ o := etcall lop (l_key this, l_value this) in
    al_transform_result red ck cv this o next.

(** lnode.rs:732-778, [transform_with_transmuted_snode]. *)
Definition atm_lsnode (this : lnode K V) (right : snode L W) (depth : N) : prog A (tres K V R) :=
  let+ h := ky_hash ky (l_key this) in
  let+ h' := ky_hash' ky (s_key right) in
  if same_hash h h' then atm_ls_impl this right
  else atm_apart (NL this) (NS right) h h' depth.

(** snode.rs:237-279, [transform_with_transmuted_snode]. *)
Definition atm_snode (this : snode K V) (right : snode L W) (depth : N) : prog A (tres K V R) :=
  let+ h := ky_hash ky (s_key this) in
  let+ h' := ky_hash' ky (s_key right) in
  if same_hash h h' then atm_s_impl this (s_key right, s_value right)
  else atm_apart (NS this) (NS right) h h' depth.

(** cnode.rs:634-654, :1014-1037 (where [keep] is false), :1401-1423. *)
Definition atm_add (keep : bool) (a : acc K V R) (index : N) (ol : option (mnode K V)) (or : option (mnode L W))
  (t : tres K V R) : prog A (acc K V R) :=
  match t with
  | TU r =>
      let+ l := lift (unwrap ol) in
      let+ a := apush red a index l (m_size l) r in
      PRet (if keep then a else set_ul a)
  | TN n => let+ a := apush_new red a index n in PRet (set_ul a)
  end.

End TM.

(** * transmute_with_transformed *)
Section MT.
Context {E : Env} {Q : Type} {A : Q -> Type} {K V L W R : Type}.
Context (red : R -> R -> prog A R) (cl : L -> prog A L) (cw : W -> prog A W) (ky : keyed A K L).
Context (both : etransform A ((K * V) * (L * W)) W R) (lop : etransmute A (K * V) L W R)
  (rop : etransform A (L * W) W R).

(** snode.rs:341-360, lnode.rs:831-854. *)
Definition amt_apart (this : lnext K V) (right : lnext L W) (h h' : word) (depth : N) : prog A (tres L W R) :=
  let+ l := an_transmute red lop this in
  let+ r := an_transform red cl cw rop right in
  let+ (lf, rf) := lift (aflags h h' depth) in
  match nnode l, tout (next_mnode right) r with
  | Some a, Some b => let+ n := apair red a lf b rf (nred l) (tred r) in PRet (TN n)
  | Some _, None => let+ z := red (nred l) (tred r) in PRet (TN (n_with l z))
  | None, _ => let+ z := red (nred l) (tred r) in PRet (t_with r z)
  end.

(** snode.rs:363-399, [transmute_with_transformed_snode_impl]. *)
Definition amt_s_impl (this : snode K V) (right : snode L W) : prog A (tres L W R) :=
  let+ b := ky_eq ky (s_key this) (s_key right) in
  if (b : bool) then
    let+ o := etcall both ((s_key this, s_value this), (s_key right, s_value right)) in
    match o with
    | VUnchanged r => PRet (TU r)
    | VTransformed v r => let+ k := cl (s_key right) in PRet (TN (NRS (SN k v) r))
    | VDropped r => PRet (TN (NRZ r))
    end
  else
    let+ l := emcall lop (s_key this, s_value this) in
    let+ r := etcall rop (s_key right, s_value right) in
    match l, r with
    | KTransmuted lk lv lr, VUnchanged rr => let+ z := red lr rr in PRet (TN (NRL (l_new lk lv (NS right)) z))
    | KTransmuted lk lv lr, VTransformed rv rr =>
        let+ k := cl (s_key right) in
        let+ z := red lr rr in PRet (TN (NRL (l_new lk lv (NS (SN k rv))) z))
    | KTransmuted lk lv lr, VDropped rr => let+ z := red lr rr in PRet (TN (NRS (SN lk lv) z))
    | KDropped lr, VUnchanged rr => let+ z := red lr rr in PRet (TU z)
    | KDropped lr, VTransformed rv rr =>
        let+ k := cl (s_key right) in
        let+ z := red lr rr in PRet (TN (NRS (SN k rv) z))
    | KDropped lr, VDropped rr => let+ z := red lr rr in PRet (TN (NRZ z))
    end.

(** lnode.rs:1119-1141, [transform_with_transmuted_result]. *)
Definition amt_hit (this : snode L W) (result : vres W R) (next : nres L W R) : prog A (nres L W R) :=
  match result with
  | VUnchanged lr =>
      let+ k := cl (s_key this) in
      let+ v := cw (s_value this) in
      let+ z := red lr (nred next) in PRet (n_cons k v next z)
  | VTransformed lv lr =>
      let+ k := cl (s_key this) in
      let+ z := red lr (nred next) in PRet (n_cons k lv next z)
  | VDropped lr => let+ z := red lr (nred next) in PRet (n_with next z)
  end.

(** lnode.rs:1143-1162, [transmute_with_transformed_result]. *)
Definition amt_miss (this : snode L W) (result : kres L W R) (next : tres L W R) : prog A (tres L W R) :=
  match result with
  | KTransmuted lk lv lr => let+ z := red lr (tred next) in PRet (t_cons (NS this) lk lv next z)
  | KDropped lr =>
      match next with
      | TU rr =>
          let+ k := cl (s_key this) in
          let+ v := cw (s_value this) in
          let+ z := red lr rr in PRet (TN (NRS (SN k v) z))
      | TN n => let+ z := red lr (nred n) in PRet (TN (n_with n z))
      end
  end.

(** lnode.rs:857-885, [transmute_with_transformed_snode_impl]. *)
Fixpoint amt_ls_impl (this : lnode K V) (right : snode L W) : prog A (tres L W R) :=
  let+ b := ky_eq ky (l_key this) (s_key right) in
  if (b : bool) then
    let+ next := an_transmute red lop (l_next this) in
    let+ o := etcall both ((l_key this, l_value this), (s_key right, s_value right)) in
    let+ n := amt_hit right o next in
    PRet (TN n)
  else
    let+ next :=
      match this with
      | LNL _ _ n _ => amt_ls_impl n right
      | LNS _ _ s _ => amt_s_impl s right
      end in
    let+ o := emcall lop (l_key this, l_value this) in
    amt_miss right o next.

(** lnode.rs:810-855, [transmute_with_transformed_snode]. *)
Definition amt_lsnode (this : lnode K V) (right : snode L W) (depth : N) : prog A (tres L W R) :=
  let+ h := ky_hash ky (l_key this) in
  let+ h' := ky_hash' ky (s_key right) in
  if same_hash h h' then amt_ls_impl this right
  else amt_apart (NL this) (NS right) h h' depth.

(** snode.rs:321-361, [transmute_with_transformed_snode]. *)
Definition amt_snode (this : snode K V) (right : snode L W) (depth : N) : prog A (tres L W R) :=
  let+ h := ky_hash ky (s_key this) in
  let+ h' := ky_hash' ky (s_key right) in
  if same_hash h h' then amt_s_impl this right
  else amt_apart (NS this) (NS right) h h' depth.

(** cnode.rs:723-743, :1099-1132 (where [keep] is false), :1486-1513. *)
Definition amt_add (keep : bool) (a : acc L W R) (index : N) (ol : option (mnode K V)) (or : option (mnode L W))
  (t : tres L W R) : prog A (acc L W R) :=
  match t with
  | TU r =>
      let+ n := lift (unwrap or) in
      let+ a := apush red a index n (m_size n) r in
      PRet (if keep then a else set_ur a)
  | TN n => let+ a := apush_new red a index n in PRet (set_ur a)
  end.

End MT.

(** * transmute_with_transmuted *)
Section MM.
Context {E : Env} {Q : Type} {A : Q -> Type} {K V L W S X R : Type}.
Context (red : R -> R -> prog A R) (ky : keyed A K L).
Context (both : etransmute A ((K * V) * (L * W)) S X R) (lop : etransmute A (K * V) S X R)
  (rop : etransmute A (L * W) S X R).

(** snode.rs:452-469, lnode.rs:599-622, :911-933. *)
Definition amm_apart (this : lnext K V) (right : lnext L W) (h h' : word) (depth : N) : prog A (nres S X R) :=
  let+ l := an_transmute red lop this in
  let+ r := an_transmute red rop right in
  let+ (lf, rf) := lift (aflags h h' depth) in
  match nnode l, nnode r with
  | Some a, Some b => apair red a lf b rf (nred l) (nred r)
  | Some _, None => let+ z := red (nred l) (nred r) in PRet (n_with l z)
  | None, _ => let+ z := red (nred l) (nred r) in PRet (n_with r z)
  end.

(** snode.rs:472-506, [transmute_with_transmuted_values]. *)
Definition amm_values (this : K * V) (right : L * W) : prog A (nres S X R) :=
  let+ b := ky_eq ky (fst this) (fst right) in
  if (b : bool) then let+ o := emcall both (this, right) in PRet (k_nres o)
  else
    let+ l := emcall lop this in
    let+ r := emcall rop right in
    match l, r with
    | KTransmuted lk lv lr, KTransmuted rk rv rr => let+ z := red lr rr in PRet (NRL (l_new lk lv (NS (SN rk rv))) z)
    | KTransmuted lk lv lr, KDropped rr => let+ z := red lr rr in PRet (NRS (SN lk lv) z)
    | KDropped lr, KTransmuted rk rv rr => let+ z := red lr rr in PRet (NRS (SN rk rv) z)
    | KDropped lr, KDropped rr => let+ z := red lr rr in PRet (NRZ z)
    end.

(** lnode.rs:625-657, [transmute_with_transmuted_lnode_impl]. *)
Fixpoint amm_l_impl (this : lnode K V) (rights : list (L * W)) : prog A (nres S X R * list (L * W)) :=
  let+ (next, rights) :=
    match this with
    | LNL _ _ n _ => amm_l_impl n rights
    | LNS _ _ s _ =>
        let+ o := atake_key (ky_eq ky (s_key s)) rights in
        match o with
        | Some (e, rights) => let+ t := amm_values (s_key s, s_value s) e in PRet (t, rights)
        | None => let+ t := as_transmute lop s in PRet (t, rights)
        end
    end in
  let+ o := atake_key (ky_eq ky (l_key this)) rights in
  let+ (result, rights) :=
    match o with
    | Some (e, rights) => let+ o := emcall both ((l_key this, l_value this), e) in PRet (o, rights)
    | None => let+ o := emcall lop (l_key this, l_value this) in PRet (o, rights)
    end in
  let+ t := al_transmute_result red result next in
  PRet (t, rights).

(** lnode.rs:582-594, the loop over the entries left in [rights]. *)
Fixpoint amm_rest (rights : list (L * W)) (next : nres S X R) : prog A (nres S X R) :=
  match rights with
  | [] => PRet next
  | e :: rights =>
      let+ o := emcall rop e in
      let+ next :=
        match o with
        | KTransmuted rk rv rr => let+ z := red rr (nred next) in PRet (n_cons rk rv next z)
        | KDropped rr => let+ z := red rr (nred next) in PRet (n_with next z)
        end in
      amm_rest rights next
  end.

(** lnode.rs:541-623, [transmute_with_transmuted_lnode]. *)
Definition amm_lnode (this : lnode K V) (right : lnode L W) (depth : N) : prog A (nres S X R) :=
  let+ h := ky_hash ky (l_key this) in
  let+ h' := ky_hash' ky (l_key right) in
  if same_hash h h' then
    let+ rights := lift (rights_loop fuel right right [(l_key right, l_value right)]) in
    let+ (next, rights) := amm_l_impl this rights in
    amm_rest rights next
  else amm_apart (NL this) (NL right) h h' depth.

(** lnode.rs:936-970, [transmute_with_transmuted_snode_impl]. *)
Fixpoint amm_ls_impl (this : lnode K V) (right : snode L W) : prog A (nres S X R) :=
  let+ b := ky_eq ky (l_key this) (s_key right) in
  if (b : bool) then
    let+ next := an_transmute red lop (l_next this) in
    let+ o := emcall both ((l_key this, l_value this), (s_key right, s_value right)) in
    al_transmute_result red o next
  else
    let+ next :=
      match this with
      | LNL _ _ n _ => amm_ls_impl n right
      | LNS _ _ s _ => amm_values (s_key s, s_value s) (s_key right, s_value right)
      end in
    let+ o := emcall lop (l_key this, l_value this) in
    al_transmute_result red o next.

(** lnode.rs:887-934, [transmute_with_transmuted_snode]. *)
Definition amm_lsnode (this : lnode K V) (right : snode L W) (depth : N) : prog A (nres S X R) :=
  let+ h := ky_hash ky (l_key this) in
  let+ h' := ky_hash' ky (s_key right) in
  if same_hash h h' then amm_ls_impl this right
  else amm_apart (NL this) (NS right) h h' depth.

(** snode.rs:427-470, [transmute_with_transmuted_snode]. *)
Definition amm_snode (this : snode K V) (right : snode L W) (depth : N) : prog A (nres S X R) :=
  let+ h := ky_hash ky (s_key this) in
  let+ h' := ky_hash' ky (s_key right) in
  if same_hash h h' then amm_values (s_key this, s_value this) (s_key right, s_value right)
  else amm_apart (NS this) (NS right) h h' depth.

(** cnode.rs:807-827, :1198-1215, :1583-1600. *)
Definition amm_add (a : acc S X R) (index : N) (ol : option (mnode K V)) (or : option (mnode L W))
  (n : nres S X R) : prog A (acc S X R) := apush_new red a index n.

End MM.

(** * The families *)
Section TMFamily.
Context {E : Env} {Q : Type} {A : Q -> Type} {K V L W R : Type}.
Context (def : prog A R) (red : R -> R -> prog A R) (ck : K -> prog A K) (cv : V -> prog A V) (ky : keyed A K L).
Context (st : strategy).
Context (both : etransform A ((K * V) * (L * W)) V R) (lop : etransform A (K * V) V R)
  (rop : etransmute A (L * W) K V R).

(** snode.rs:115-133, lnode.rs:224-243, mnode.rs:196-216, :280-300. *)
Definition atm_leaf (this : lnext K V) (right : lnext L W) (depth : N) : prog A (tres K V R) :=
  match this, right with
  | NL l, NL r => atm_lnode red ck cv ky both lop rop l r depth
  | NL l, NS r => atm_lsnode red ck cv ky both lop rop l r depth
  | NS s, NL r => amt_lsnode red ck cv (ky_flip ky) (etflip both) rop lop r s depth
  | NS s, NS r => atm_snode red ck cv ky both lop rop s r depth
  end.

(** One side only. *)
Definition atm_lone (n : mnode K V) : prog A (tres K V R) := am_transform def red ck cv st lop n.
Definition atm_rone (n : mnode L W) : prog A (tres K V R) :=
  let+ x := am_transmute def red rop n in PRet (TN x).

(** cnode.rs:968-1060 and :1355-1446. *)
Definition atm_tree_leaf (right : lnext L W) : mnode K V -> N -> prog A (tres K V R) :=
  am_leaf def (atm_add red (match right with NL _ => false | NS _ => true end)) atm_lone atm_rone tm_done
    (ky_hash' ky) atm_leaf right.

End TMFamily.

Section MTFamily.
Context {E : Env} {Q : Type} {A : Q -> Type} {K V L W R : Type}.
Context (def : prog A R) (red : R -> R -> prog A R) (cl : L -> prog A L) (cw : W -> prog A W) (ky : keyed A K L).
Context (st : strategy).
Context (both : etransform A ((K * V) * (L * W)) W R) (lop : etransmute A (K * V) L W R)
  (rop : etransform A (L * W) W R).

(** snode.rs:135-152, lnode.rs:245-264, mnode.rs:218-237, :302-321. *)
Definition amt_leaf (this : lnext K V) (right : lnext L W) (depth : N) : prog A (tres L W R) :=
  match this, right with
  | NL l, NL r => atm_lnode red cl cw (ky_flip ky) (etflip both) rop lop r l depth
  | NL l, NS r => amt_lsnode red cl cw ky both lop rop l r depth
  | NS s, NL r => atm_lsnode red cl cw (ky_flip ky) (etflip both) rop lop r s depth
  | NS s, NS r => amt_snode red cl cw ky both lop rop s r depth
  end.

(** One side only. *)
Definition amt_lone (n : mnode K V) : prog A (tres L W R) :=
  let+ x := am_transmute def red lop n in PRet (TN x).
Definition amt_rone (n : mnode L W) : prog A (tres L W R) := am_transform def red cl cw st rop n.

(** cnode.rs:1062-1150 and :1448-1535. *)
Definition amt_tree_leaf (right : lnext L W) : mnode K V -> N -> prog A (tres L W R) :=
  am_leaf def (amt_add red (match right with NL _ => false | NS _ => true end)) amt_lone amt_rone mt_done
    (ky_hash' ky) amt_leaf right.

End MTFamily.

Section MMFamily.
Context {E : Env} {Q : Type} {A : Q -> Type} {K V L W S X R : Type}.
Context (def : prog A R) (red : R -> R -> prog A R) (ky : keyed A K L).
Context (both : etransmute A ((K * V) * (L * W)) S X R) (lop : etransmute A (K * V) S X R)
  (rop : etransmute A (L * W) S X R).

(** snode.rs:401-425, lnode.rs:266-290, mnode.rs:239-259, :323-343. *)
Definition amm_leaf (this : lnext K V) (right : lnext L W) (depth : N) : prog A (nres S X R) :=
  match this, right with
  | NL l, NL r => amm_lnode red ky both lop rop l r depth
  | NL l, NS r => amm_lsnode red ky both lop rop l r depth
  | NS s, NL r => amm_lsnode red (ky_flip ky) (emflip both) rop lop r s depth
  | NS s, NS r => amm_snode red ky both lop rop s r depth
  end.

(** cnode.rs:1152-1228 and :1537-1613. *)
Definition amm_tree_leaf (right : lnext L W) : mnode K V -> N -> prog A (nres S X R) :=
  am_leaf def (amm_add red) (am_transmute def red lop) (am_transmute def red rop) finish (ky_hash' ky) amm_leaf right.

End MMFamily.

Section Joint.
Context {E : Env} {Q : Type} {A : Q -> Type} {K V L W R : Type}.
Context (def : prog A R) (red : R -> R -> prog A R) (ky : keyed A K L) (st : strategy).

(** mnode.rs:112-133; cnode.rs:585-673. *)
Definition am_tm (ck : K -> prog A K) (cv : V -> prog A V) (both : etransform A ((K * V) * (L * W)) V R)
  (lop : etransform A (K * V) V R) (rop : etransmute A (L * W) K V R) : mnode K V -> mnode L W -> N -> prog A (tres K V R) :=
  am_joint def (atm_add red true) (atm_lone def red ck cv st lop) (atm_rone def red rop) tm_done
    (atm_leaf red ck cv ky both lop rop) (atm_tree_leaf def red ck cv ky st both lop rop)
    (amt_tree_leaf def red ck cv (ky_flip ky) st (etflip both) rop lop).

(** mnode.rs:135-154; cnode.rs:675-764. *)
Definition am_mt (cl : L -> prog A L) (cw : W -> prog A W) (both : etransform A ((K * V) * (L * W)) W R)
  (lop : etransmute A (K * V) L W R) (rop : etransform A (L * W) W R) : mnode K V -> mnode L W -> N -> prog A (tres L W R) :=
  am_joint def (amt_add red true) (amt_lone def red lop) (amt_rone def red cl cw st rop) mt_done
    (amt_leaf red cl cw ky both lop rop) (amt_tree_leaf def red cl cw ky st both lop rop)
    (atm_tree_leaf def red cl cw (ky_flip ky) st (etflip both) rop lop).

(** mnode.rs:156-175; cnode.rs:766-840. *)
Definition am_mm {S X} (both : etransmute A ((K * V) * (L * W)) S X R) (lop : etransmute A (K * V) S X R)
  (rop : etransmute A (L * W) S X R) : mnode K V -> mnode L W -> N -> prog A (nres S X R) :=
  am_joint def (amm_add red) (am_transmute def red lop) (am_transmute def red rop) finish
    (amm_leaf red ky both lop rop) (amm_tree_leaf def red ky both lop rop)
    (amm_tree_leaf def red (ky_flip ky) (emflip both) rop lop).

End Joint.

(** * The public operations *)

(** What the client's code is called with: the three closures, [reduce_op],
    [ReduceT::default], [Hash] of the keys of either map, [==] in both directions, and
    [Clone] of keys and values of the map that is transformed ([K], [V]). *)
Inductive jcalls (KL VL KR VR K V R : Type) : Type :=
| JBoth (e : KL * VL) (e' : KR * VR)
| JLeft (e : KL * VL)
| JRight (e : KR * VR)
| JReduce (a b : R)
| JDefault
| JHash (k : KL)
| JHash' (k : KR)
| JEq (k : KL) (k' : KR)
| JEq' (k' : KR) (k : KL)
| JKey (k : K)
| JValue (v : V).
Arguments JBoth {KL VL KR VR K V R} e e'.
Arguments JLeft {KL VL KR VR K V R} e.
Arguments JRight {KL VL KR VR K V R} e.
Arguments JReduce {KL VL KR VR K V R} a b.
Arguments JDefault {KL VL KR VR K V R}.
Arguments JHash {KL VL KR VR K V R} k.
Arguments JHash' {KL VL KR VR K V R} k.
Arguments JEq {KL VL KR VR K V R} k k'.
Arguments JEq' {KL VL KR VR K V R} k' k.
Arguments JKey {KL VL KR VR K V R} k.
Arguments JValue {KL VL KR VR K V R} v.

(** [TB], [TL], [TR] are what the closures answer. *)
Definition jreply {E : Env} (KL VL KR VR K V TB TL TR R : Type) (q : jcalls KL VL KR VR K V R) : Type :=
  match q with
  | JBoth _ _ => TB
  | JLeft _ => TL
  | JRight _ => TR
  | JReduce _ _ | JDefault => R
  | JHash _ | JHash' _ => word
  | JEq _ _ | JEq' _ _ => bool
  | JKey _ => K
  | JValue _ => V
  end.

Section Api.
Context {E : Env} {KL VL KR VR R : Type}.

(** The keys of a joint operation. *)
Definition jkeyed {K V TB TL TR} : keyed (jreply KL VL KR VR K V TB TL TR R) KL KR :=
  Keyed (fun k => PAsk (A := jreply KL VL KR VR K V TB TL TR R) (JHash k) PRet)
        (fun k => PAsk (A := jreply KL VL KR VR K V TB TL TR R) (JHash' k) PRet)
        (fun k k' => PAsk (A := jreply KL VL KR VR K V TB TL TR R) (JEq k k') PRet)
        (fun k' k => PAsk (A := jreply KL VL KR VR K V TB TL TR R) (JEq' k' k) PRet).

(** hash_trie.rs:121-143, map.rs:182-199; the [w]s say whether the client passed
    closures or constants. *)
Definition ask_tm (st : strategy) (wb wl : tway R) (wr : mway R) (m : trie KL VL) (right : trie KR VR)
  : prog (jreply KL VL KR VR KL VL (vres VL R) (vres VL R) (kres KL VL R) R) (trie KL VL * R * origin) :=
  let ask q := PAsk (A := jreply KL VL KR VR KL VL (vres VL R) (vres VL R) (kres KL VL R) R) q PRet in
  let+ t := am_tm (ask JDefault) (fun a b => ask (JReduce a b)) jkeyed st (fun k => ask (JKey k)) (fun v => ask (JValue v))
              (tw_op wb (fun p => ask (JBoth (fst p) (snd p)))) (tw_op wl (fun e => ask (JLeft e)))
              (mw_op wr (fun e => ask (JRight e))) m right 0 in
  PRet
    match t with
    | TU r => (m, r, Self)
    | TN n => (nres_trie n, Other)
    end.

(** hash_trie.rs:145-167, map.rs:225-242. *)
Definition ask_mt (st : strategy) (wb : tway R) (wl : mway R) (wr : tway R) (m : trie KL VL) (right : trie KR VR)
  : prog (jreply KL VL KR VR KR VR (vres VR R) (kres KR VR R) (vres VR R) R) (trie KR VR * R * origin) :=
  let ask q := PAsk (A := jreply KL VL KR VR KR VR (vres VR R) (kres KR VR R) (vres VR R) R) q PRet in
  let+ t := am_mt (ask JDefault) (fun a b => ask (JReduce a b)) jkeyed st (fun k => ask (JKey k)) (fun v => ask (JValue v))
              (tw_op wb (fun p => ask (JBoth (fst p) (snd p)))) (mw_op wl (fun e => ask (JLeft e)))
              (tw_op wr (fun e => ask (JRight e))) m right 0 in
  PRet
    match t with
    | TU r => (right, r, Right)
    | TN n => (nres_trie n, Other)
    end.

(** hash_trie.rs:169-195, map.rs:245-265.  Nothing is cloned. *)
Definition ask_mm {S X} (wb wl wr : mway R) (m : trie KL VL) (right : trie KR VR)
  : prog (jreply KL VL KR VR Empty_set Empty_set (kres S X R) (kres S X R) (kres S X R) R) (trie S X * R) :=
  let ask q := PAsk (A := jreply KL VL KR VR Empty_set Empty_set (kres S X R) (kres S X R) (kres S X R) R) q PRet in
  let+ n := am_mm (ask JDefault) (fun a b => ask (JReduce a b)) jkeyed
              (mw_op wb (fun p => ask (JBoth (fst p) (snd p)))) (mw_op wl (fun e => ask (JLeft e)))
              (mw_op wr (fun e => ask (JRight e))) m right 0 in
  PRet (nres_trie n).

End Api.
