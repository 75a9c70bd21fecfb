(** How C59 reads a trace of calls; nothing here looks into the operations. *)
From Coq Require Import NArith List Bool Permutation.
From Verif Require Import Base Words Flag Bia Node Trans Eff AskT.
Import ListNotations.
Open Scope N_scope.

(** An answered call as bookkeeping sees it: [I] is a call of the closure with
    its answer, [C] a clone that was made. *)
Inductive item (I C R : Type) : Type :=
| ItOp (i : I)
| ItReduce (a b r : R)
| ItDefault (r : R)
| ItClone (c : C)
| ItNone.
Arguments ItOp {I C R} i.
Arguments ItReduce {I C R} a b r.
Arguments ItDefault {I C R} r.
Arguments ItClone {I C R} c.
Arguments ItNone {I C R}.

Section Books.
Context {Ev I C R : Type} (see : Ev -> item I C R).

Definition ops (tr : list Ev) : list I := flat_map (fun e => match see e with ItOp i => [i] | _ => [] end) tr.
Definition clones (tr : list Ev) : list C := flat_map (fun e => match see e with ItClone c => [c] | _ => [] end) tr.
Definition reduces (tr : list Ev) : N := lenN (filter (fun e => match see e with ItReduce _ _ _ => true | _ => false end) tr).
Definition defaults (tr : list Ev) : N := lenN (filter (fun e => match see e with ItDefault _ => true | _ => false end) tr).

(** [reduced tr l r]: [r] was made of the reductions [l], in this order and each
    once, by calls of [reduce_op] and [ReduceT::default] in [tr]. *)
Inductive reduced (tr : list Ev) : list R -> R -> Prop :=
| red_one r : reduced tr [r] r
| red_default e r : In e tr -> see e = ItDefault r -> reduced tr [] r
| red_both e l1 l2 a b r : In e tr -> see e = ItReduce a b r -> reduced tr l1 a -> reduced tr l2 b -> reduced tr (l1 ++ l2) r.

(** The closure's answers are [is], each call once; [r] was made of their
    reductions; [reduce_op] was called once less than there was to combine; and
    no more was cloned than [cost] allows for. *)
Definition settled (rof : I -> R) (cost : I -> list C) (tr : list Ev) (is : list I) (r : R) : Prop :=
  Permutation (ops tr) is /\
  reduced tr (map rof is) r /\
  reduces tr + 1 = lenN is + defaults tr /\
  exists rest, Permutation (clones tr ++ rest) (flat_map cost is).

End Books.

Section Calls.
Context {K V T R : Type}.
Notation event := (event (A := treply K V T R)).

(** The entries the closure was called with, answered or not. *)
Definition op_asked (e : event) : list (K * V) := match asked e with TOp x => [x] | _ => [] end.
Definition ops_asked (tr : list event) : list (K * V) := flat_map op_asked tr.

Definition see (e : event) : item ((K * V) * T) (K + V) R :=
  match e with
  | existT _ q a =>
      match q return option (treply K V T R q) -> item ((K * V) * T) (K + V) R with
      | TOp x => fun a => match a with Some t => ItOp (x, t) | None => ItNone end
      | TReduce x y => fun a => match a with Some r => ItReduce x y r | None => ItNone end
      | TDefault => fun a => match a with Some r => ItDefault r | None => ItNone end
      | TKey k => fun a => match a with Some _ => ItClone (inl k) | None => ItNone end
      | TValue v => fun a => match a with Some _ => ItClone (inr v) | None => ItNone end
      end a
  end.

(** [k'] is what cloning [k] answered. *)
Definition key_clone (tr : list event) (k k' : K) : Prop := In (answer (A := treply K V T R) (TKey k) k') tr.
Definition value_clone (tr : list event) (v v' : V) : Prop := In (answer (A := treply K V T R) (TValue v) v') tr.

(** A call panicked. *)
Definition panicked (tr : list event) : Prop := exists q, In (broke q) tr.

(** A clone of a key has the hash of the key. *)
Definition clone_steady {E : Env} {KK : Key K} (e : event) : Prop :=
  match e with
  | existT _ q a =>
      match q return option (treply K V T R q) -> Prop with
      | TKey k => fun a => match a with Some k' => hashk k' = hashk k | None => True end
      | _ => fun _ => True
      end a
  end.

End Calls.

Section Transform.
Context {K V R : Type}.
Notation event := (event (A := treply K V (vres V R) R)).

Definition vred (i : (K * V) * vres V R) : R :=
  match snd i with VUnchanged r | VTransformed _ r | VDropped r => r end.
Definition kept (i : (K * V) * vres V R) : bool := match snd i with VUnchanged _ => true | _ => false end.

(** An entry kept may be cloned, of a changed one only the key. *)
Definition vcost (i : (K * V) * vres V R) : list (K + V) :=
  match snd i with
  | VUnchanged _ => [inl (fst (fst i)); inr (snd (fst i))]
  | VTransformed _ _ => [inl (fst (fst i))]
  | VDropped _ => []
  end.

(** What the entry [fst i] answered by [snd i] becomes: itself or a clone, a clone
    of its key with the new value, or nothing. *)
Definition vbecomes (tr : list event) (i : (K * V) * vres V R) (out : list (K * V)) : Prop :=
  match snd i with
  | VUnchanged _ => out = [fst i] \/
      exists k v, key_clone tr (fst (fst i)) k /\ value_clone tr (snd (fst i)) v /\ out = [(k, v)]
  | VTransformed v _ => exists k, key_clone tr (fst (fst i)) k /\ out = [(k, v)]
  | VDropped _ => out = []
  end.

End Transform.

Section Transmute.
Context {K V S X R : Type}.

Definition kred (i : (K * V) * kres S X R) : R := match snd i with KTransmuted _ _ r | KDropped r => r end.
Definition kcost (i : (K * V) * kres S X R) : list (K + V) := [].
Definition kbecomes (i : (K * V) * kres S X R) : list (S * X) :=
  match snd i with KTransmuted k v _ => [(k, v)] | KDropped _ => [] end.

(** The new key has the hash of the old one. *)
Definition answer_steady {E : Env} {KK : Key K} {KS : Key S} (e : event (A := treply K V (kres S X R) R)) : Prop :=
  match e with
  | existT _ q a =>
      match q return option (treply K V (kres S X R) R q) -> Prop with
      | TOp x => fun a => match a with Some (KTransmuted k _ _) => hashk k = hashk (fst x) | _ => True end
      | _ => fun _ => True
      end a
  end.

End Transmute.
