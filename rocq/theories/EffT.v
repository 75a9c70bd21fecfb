(** transform and transmute on one map with closures that are events; compare
    Transform.v, function by function.  The order of the calls is the code's. *)
From Coq Require Import NArith List Bool.
From Verif Require Import Base Words Flag Bia Node Api Trans Transform Eff.
Import ListNotations.
Open Scope N_scope.

Section Transform.
Context {E : Env} {Q : Type} {A : Q -> Type} {K V R : Type}.
Context (rdef : R) (rd : R -> R -> R).

(** snode.rs:74-84, [transform]. *)
Definition es_transform (op : etransform A (K * V) V R) (s : snode K V) : prog A (tres K V R) :=
  let+ o := etcall op (s_key s, s_value s) in
  PRet
    match o with
    | VUnchanged r => TU r
    | VTransformed v r => TN (NRS (SN (s_key s) v) r)
    | VDropped r => TN (NRZ r)
    end.

(** lnode.rs:151-176, [transform] and [transform_impl]: the rest of the list
    first (170-173), then this entry (175). *)
Fixpoint el_transform (op : etransform A (K * V) V R) (this : lnode K V) : prog A (tres K V R) :=
  match op with
  | EGeneric _ =>
      let+ next :=
        match this with
        | LNL _ _ n _ => el_transform op n
        | LNS _ _ s _ => es_transform op s
        end in
      let+ o := etcall op (l_key this, l_value this) in
      PRet (l_transform_result rd this o next)
  | EUnchanged r => PRet (TU r)
  | ERemoved r => PRet (TN (NRZ r))
  end.

(** cnode.rs:185-219, the loop body of [transform_impl]. *)
Definition ec_transform_step (self : bia (mnode K V * prog A (tres K V R))) (a : acc K V R) (index : N)
  : prog A (acc K V R) :=
  let+ o := lift (bat_bit_index fw self index) in
  match o with
  | Ok (node, res) =>
      let+ t := res in
      lift
        match t with
        | TU r => push rd a index node (m_size node) r
        | TN n => let* a' := push_new rd a index n in Ret (set_ul a')
        end
  | Err _ => PRet a
  end.

(** mnode.rs:62-74; the branch case is cnode.rs:117-222. *)
Fixpoint em_transform (st : strategy) (op : etransform A (K * V) V R) (n : mnode K V) {struct n}
  : prog A (tres K V R) :=
  match n with
  | MC (BIA bits values extra) =>
      match op with
      | EGeneric _ =>
          let+ a := erun_loop rdef rd st
                      (ec_transform_step (BIA bits (map (fun c => (c, em_transform st op c)) values) extra)) in
          lift (if a_ul a then Ret (TU (a_red a))
                else let* n := finish a in Ret (TN n))
      | EUnchanged r => PRet (TU r)
      | ERemoved r => PRet (TN (NRZ r))
      end
  | ML l => el_transform op l
  | MS s => es_transform op s
  end.

End Transform.

Section Transmute.
Context {E : Env} {Q : Type} {A : Q -> Type} {K V S X R : Type}.
Context (rdef : R) (rd : R -> R -> R).

(** snode.rs:86-94, [transmute]. *)
Definition es_transmute (op : etransmute A (K * V) S X R) (s : snode K V) : prog A (nres S X R) :=
  let+ o := emcall op (s_key s, s_value s) in
  PRet
    match o with
    | KTransmuted k v r => NRS (SN k v) r
    | KDropped r => NRZ r
    end.

(** lnode.rs:178-206, [transmute] and [transmute_impl]: the rest of the list
    first (200-203), then this entry (205). *)
Fixpoint el_transmute (op : etransmute A (K * V) S X R) (this : lnode K V) : prog A (nres S X R) :=
  match op with
  | EMGeneric _ =>
      let+ next :=
        match this with
        | LNL _ _ n _ => el_transmute op n
        | LNS _ _ s _ => es_transmute op s
        end in
      let+ o := emcall op (l_key this, l_value this) in
      PRet (l_transmute_result rd o next)
  | EMRemoved r => PRet (NRZ r)
  end.

(** cnode.rs:243-266, the loop body. *)
Definition ec_transmute_step (self : bia (prog A (nres S X R))) (a : acc S X R) (index : N) : prog A (acc S X R) :=
  let+ o := lift (bat_bit_index fw self index) in
  match o with
  | Ok res => let+ n := res in lift (push_new rd a index n)
  | Err _ => PRet a
  end.

(** mnode.rs:76-91; the branch case is cnode.rs:224-282. *)
Fixpoint em_transmute (op : etransmute A (K * V) S X R) (n : mnode K V) {struct n} : prog A (nres S X R) :=
  match n with
  | MC (BIA bits values extra) =>
      match op with
      | EMGeneric _ =>
          let+ a := eloop (ec_transmute_step (BIA bits (map (em_transmute op) values) extra))
                      (range 0 (max_ones fw)) (acc0 rdef) in
          lift (if lenN (a_values a) =? count_ones (a_bits a) then finish a else Panic)
      | EMRemoved r => PRet (NRZ r)
      end
  | ML l => el_transmute op l
  | MS s => es_transmute op s
  end.

End Transmute.

(** * visit *)
Section Visit.
Context {E : Env} {Q : Type} {A : Q -> Type} {K V : Type}.

(** snode.rs:27-29, [visit]. *)
Definition es_visit (op : K * V -> prog A unit) (s : snode K V) : prog A unit := op (s_key s, s_value s).

(** lnode.rs:67-73, [visit]: this entry, then the rest. *)
Fixpoint el_visit (op : K * V -> prog A unit) (l : lnode K V) : prog A unit :=
  let+ _ := op (l_key l, l_value l) in
  match l with
  | LNL _ _ n _ => el_visit op n
  | LNS _ _ s _ => es_visit op s
  end.

(** [for node in nodes]. *)
Fixpoint each {T} (f : T -> prog A unit) (l : list T) : prog A unit :=
  match l with
  | [] => PRet tt
  | t :: l => let+ _ := f t in each f l
  end.

(** mnode.rs:54-60; cnode.rs:64-72. *)
Fixpoint em_visit (op : K * V -> prog A unit) (n : mnode K V) {struct n} : prog A unit :=
  match n with
  | MC (BIA _ values _) => each (fun p => p) (map (em_visit op) values)
  | ML l => el_visit op l
  | MS s => es_visit op s
  end.

End Visit.

(** * The public operations *)
Section Api.
Context {E : Env} {Q : Type} {A : Q -> Type} {K V R : Type}.
Context (rdef : R) (rd : R -> R -> R).

(** hash_trie.rs:65-80, map.rs:115-125. *)
Definition emap_transform (st : strategy) (op : etransform A (K * V) V R) (m : trie K V)
  : prog A (trie K V * R * origin) :=
  let+ t := em_transform rdef rd st op m in
  PRet
    match t with
    | TU r => (m, r, Self)
    | TN n => (nres_trie n, Other)
    end.

(** hash_trie.rs:82-99, map.rs:128-141. *)
Definition emap_transmute {S X} (op : etransmute A (K * V) S X R) (m : trie K V) : prog A (trie S X * R) :=
  let+ n := em_transmute rdef rd op m in
  PRet (nres_trie n).

(** hash_trie.rs:61-63, map.rs:110-112. *)
Definition emap_visit (op : K * V -> prog A unit) (m : trie K V) : prog A unit := em_visit op m.

End Api.
