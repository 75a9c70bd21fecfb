(** Independent specification of joint operations: two finite maps merged key
    by key.  Nothing here mentions tries. *)
From Coq Require Import NArith List Bool.
From Verif Require Import Base Spec.
Import ListNotations.

Section Join.
Context {E : Env} {K V L W S X : Type} {KK : Key K} {KL : Key L}.

(** What may become of a key, given its entry on either side. *)
Definition joined (sB : K * V -> L * W -> option (S * X) -> Prop) (sL : K * V -> option (S * X))
  (sR : L * W -> option (S * X)) (a : option (K * V)) (b : option (L * W)) (o : option (S * X)) : Prop :=
  match a, b with
  | Some e, Some e' => sB e e' o
  | Some e, None => o = sL e
  | None, Some e' => o = sR e'
  | None, None => o = None
  end.

(** One contribution per key: [fB] for common keys, [fL] and [fR] for the others. *)
Definition unmatched (ln : list (K * V)) (e' : L * W) : bool :=
  match lookup (ecls e') ln with Some _ => false | None => true end.
Definition merge {A} (fB : K * V -> L * W -> list A) (fL : K * V -> list A) (fR : L * W -> list A)
  (ln : list (K * V)) (lr : list (L * W)) : list A :=
  flat_map (fun e => match lookup (ecls e) lr with Some e' => fB e e' | None => fL e end) ln ++
  flat_map fR (filter (unmatched ln) lr).

(** Number of entries with hash [h]. *)
Definition cnt {K V} {KK : Key K} (h : N) (l : list (K * V)) : nat :=
  length (filter (fun e => N.eqb (hash (ecls e)) h) l).

End Join.

(** The entry left by a transformation or made by a transmutation. *)
From Verif Require Import Trans.
Definition t_to {K V R} (o : vres V R) (e : K * V) : option (K * V) :=
  match o with
  | VUnchanged _ => Some e
  | VTransformed v _ => Some (fst e, v)
  | VDropped _ => None
  end.
Definition m_to {S X R} (o : kres S X R) : option (S * X) :=
  match o with
  | KTransmuted k v _ => Some (k, v)
  | KDropped _ => None
  end.

(** Operations given as closures, as opposed to the constants. *)
Definition t_generic {A V R} (op : transform_op A V R) : Prop := match op with TGeneric _ => True | _ => False end.
Definition m_generic {A S X R} (op : transmute_op A S X R) : Prop := match op with MGeneric _ => True | _ => False end.

(** The contract of a transmutation of common entries: a new key hashes and
    compares like the keys it comes from. *)
Definition b_keeps {E : Env} {K V L W S X R} {KK : Key K} {KL : Key L} {KS : Key S}
  (op : (K * V) * (L * W) -> kres S X R) (ln : list (K * V)) (lr : list (L * W)) : Prop :=
  forall e e' k v r, In e ln -> In e' lr -> cls (fst e) = cls (fst e') -> op (e, e') = KTransmuted k v r -> cls k = cls (fst e).

(** The entries of the merge of two maps. *)
Definition opt {A} (o : option A) : list A := match o with Some a => [a] | None => [] end.
Definition merged_entries {E : Env} {K V L W S X} {KK : Key K} {KL : Key L}
  (fB : K * V -> L * W -> option (S * X)) (fL : K * V -> option (S * X)) (fR : L * W -> option (S * X))
  (ln : list (K * V)) (lr : list (L * W)) : list (S * X) :=
  merge (fun e e' => opt (fB e e')) (fun e => opt (fL e)) (fun e' => opt (fR e')) ln lr.
(** The reductions of the merge of two maps. *)
Definition merged_reds {E : Env} {K V L W R} {KK : Key K} {KL : Key L}
  (rB : K * V -> L * W -> R) (rL : K * V -> R) (rR : L * W -> R) : list (K * V) -> list (L * W) -> list R :=
  merge (fun e e' => [rB e e']) (fun e => [rL e]) (fun e' => [rR e']).

(** * Joint transformations of two maps of one type *)

(** What may become of two entries with equal keys.  "Unchanged on both sides"
    leaves open which of the two equal entries is kept, and a new value may be
    filed under either of the two equal keys. *)
Definition b_to {K V R} (o : bres V R) (e e' : K * V) (x : option (K * V)) : Prop :=
  match o with
  | BUnchangedLR _ => x = Some e \/ x = Some e'
  | BUnchangedL _ => x = Some e
  | BUnchangedR _ => x = Some e'
  | BTransformed v _ => x = Some (fst e, v) \/ x = Some (fst e', v)
  | BDropped _ => x = None
  end.
Definition b_red {V R} (o : bres V R) : R :=
  match o with
  | BUnchangedLR r | BUnchangedL r | BUnchangedR r | BTransformed _ r | BDropped r => r
  end.

(** The constant operations "keep the left entry" and "keep the right entry". *)
Definition one_sided {A V R} (op : joint_op A V R) : Prop :=
  match op with JUnchangedL _ | JUnchangedR _ => True | _ => False end.

(** As [b_to], but either entry may be kept by the one-sided constants. *)
Definition b_about {K V R} (op : joint_op (K * V) V R) (e e' : K * V) (x : option (K * V)) : Prop :=
  b_to (jcall op e e') e e' x \/ (one_sided op /\ (x = Some e \/ x = Some e')).

(** Kinds of results. *)
Definition stays {V R} (o : vres V R) : Prop := match o with VUnchanged _ => True | _ => False end.
Definition goes {V R} (o : vres V R) : Prop := match o with VDropped _ => True | _ => False end.
Definition keeps_right {V R} (o : bres V R) : Prop := match o with BUnchangedR _ => True | _ => False end.

Section Clash.
Context {E : Env} {K V R : Type} {KK : Key K}.

(** Two different keys of [l] have hash [h]. *)
Definition plural (h : N) (l : list (K * V)) : Prop :=
  exists c c', c <> c' /\ hash c = h /\ hash c' = h /\ lookup c l <> None /\ lookup c' l <> None.
(** Entries with equal keys of hash [h]; an entry of [ln] alone. *)
Definition common (h : N) (ln lr : list (K * V)) (e e' : K * V) : Prop :=
  hash (ecls e) = h /\ lookup (ecls e) ln = Some e /\ lookup (ecls e) lr = Some e'.
Definition only (h : N) (ln lr : list (K * V)) (e : K * V) : Prop :=
  hash (ecls e) = h /\ lookup (ecls e) ln = Some e /\ lookup (ecls e) lr = None.

(** Restrictions on the operations at the hashes that several keys of [ln]
    share.  Without colliding hashes they hold for all operations. *)
Definition tame_left (op : joint_op (K * V) V R) (lop rop : transform_op (K * V) V R) (ln lr : list (K * V)) : Prop :=
  forall h, plural h ln ->
    (plural h lr -> forall e e', common h ln lr e e' -> ~ keeps_right (jcall op e e')) /\
    (~ plural h lr ->
       (forall e e' e1, common h ln lr e e' -> keeps_right (jcall op e e') ->
          only h ln lr e1 -> ~ stays (tcall lop e1)) /\
       (forall e' e1 e2, only h lr ln e' -> stays (tcall rop e') ->
          only h ln lr e1 -> stays (tcall lop e1) -> only h ln lr e2 -> ~ goes (tcall lop e2))).
Definition tame (op : joint_op (K * V) V R) (lop rop : transform_op (K * V) V R) (ln lr : list (K * V)) : Prop :=
  tame_left op lop rop ln lr /\ tame_left (jflip op) rop lop lr ln.

End Clash.
