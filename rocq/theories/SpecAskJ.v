(** How C60 reads a trace of calls of a joint operation; nothing here looks into the
    operations. *)
From Coq Require Import NArith List Bool Permutation.
From Verif Require Import Base Words Flag Bia Node Trans Eff Ask AskJ SpecAskT.
Import ListNotations.
Open Scope N_scope.

(** A call of one of the three closures, with its answer. *)
Inductive jitem (KL VL KR VR TB TL TR : Type) : Type :=
| IBoth (e : KL * VL) (e' : KR * VR) (t : TB)
| ILeft (e : KL * VL) (t : TL)
| IRight (e : KR * VR) (t : TR).
Arguments IBoth {KL VL KR VR TB TL TR} e e' t.
Arguments ILeft {KL VL KR VR TB TL TR} e t.
Arguments IRight {KL VL KR VR TB TL TR} e t.

Section Calls.
Context {E : Env} {KL VL KR VR K V TB TL TR R : Type}.
Notation A := (jreply KL VL KR VR K V TB TL TR R).
Notation event := (event (A := A)).
Notation jitem := (jitem KL VL KR VR TB TL TR).

(** The entries of the left map ([inl]) and of the right map ([inr]) the closures were
    called with, answered or not. *)
Definition jtold (e : event) : list ((KL * VL) + (KR * VR)) :=
  match asked e with
  | JBoth x y => [inl x; inr y]
  | JLeft x => [inl x]
  | JRight y => [inr y]
  | _ => []
  end.
Definition jtold_all (tr : list event) : list ((KL * VL) + (KR * VR)) := flat_map jtold tr.

Definition jsee (e : event) : item jitem (K + V) R :=
  match e with
  | existT _ q a =>
      match q return option (A q) -> item jitem (K + V) R with
      | JBoth x y => fun a => match a with Some t => ItOp (IBoth x y t) | None => ItNone end
      | JLeft x => fun a => match a with Some t => ItOp (ILeft x t) | None => ItNone end
      | JRight y => fun a => match a with Some t => ItOp (IRight y t) | None => ItNone end
      | JReduce x y => fun a => match a with Some r => ItReduce x y r | None => ItNone end
      | JDefault => fun a => match a with Some r => ItDefault r | None => ItNone end
      | JKey k => fun a => match a with Some _ => ItClone (inl k) | None => ItNone end
      | JValue v => fun a => match a with Some _ => ItClone (inr v) | None => ItNone end
      | _ => fun _ => ItNone
      end a
  end.

(** [k'] is what cloning [k] answered. *)
Definition jkey_clone (tr : list event) (k k' : K) : Prop := In (answer (A := A) (JKey k) k') tr.
Definition jvalue_clone (tr : list event) (v v' : V) : Prop := In (answer (A := A) (JValue v) v') tr.

(** One of the two was asked and said that it equals the other. *)
Definition said_equal (tr : list event) (k : KL) (k' : KR) : Prop :=
  In (answer (A := A) (JEq k k') true) tr \/ In (answer (A := A) (JEq' k' k) true) tr.

(** The call was made, and the closure for both only with keys said to be equal. *)
Definition called (tr : list event) (i : jitem) : Prop :=
  match i with
  | IBoth x y t => In (answer (A := A) (JBoth x y) t) tr /\ said_equal tr (fst x) (fst y)
  | ILeft x t => In (answer (A := A) (JLeft x) t) tr
  | IRight y t => In (answer (A := A) (JRight y) t) tr
  end.

(** The hash [h] was answered for some key of either map. *)
Definition hash_said (tr : list event) (h : word) : Prop :=
  (exists k, In (answer (A := A) (JHash k) h) tr) \/ exists k, In (answer (A := A) (JHash' k) h) tr.

(** Why a joint operation may panic: a call panicked, or two keys were given different
    hashes. *)
Definition jpanicked (tr : list event) : Prop := exists q, In (broke q) tr.
Definition hashes_differ (tr : list event) : Prop :=
  exists h h', hash_said tr h /\ hash_said tr h' /\ proj1_sig h <> proj1_sig h'.

(** What became of an entry answered by [o]: itself or a clone, a clone of its key with
    the new value, or nothing. *)
Definition jbecomes (tr : list event) (x : K * V) (o : vres V R) (out : list (K * V)) : Prop :=
  match o with
  | VUnchanged _ => out = [x] \/ exists k v, jkey_clone tr (fst x) k /\ jvalue_clone tr (snd x) v /\ out = [(k, v)]
  | VTransformed v _ => exists k, jkey_clone tr (fst x) k /\ out = [(k, v)]
  | VDropped _ => out = []
  end.
Definition jcost (x : K * V) (o : vres V R) : list (K + V) :=
  match o with
  | VUnchanged _ => [inl (fst x); inr (snd x)]
  | VTransformed _ _ => [inl (fst x)]
  | VDropped _ => []
  end.
Definition jvred (o : vres V R) : R := match o with VUnchanged r | VTransformed _ r | VDropped r => r end.

(** The hashes are in order: of keys and of clones of keys. *)
Context {KKL : Key KL} {KKR : Key KR} {KK : Key K}.
Definition jsteady (e : event) : Prop :=
  match e with
  | existT _ q a =>
      match q return option (A q) -> Prop with
      | JHash k => fun a => match a with Some h => proj1_sig h = hashk k | None => True end
      | JHash' k => fun a => match a with Some h => proj1_sig h = hashk k | None => True end
      | JKey k => fun a => match a with Some k' => hashk k' = hashk k | None => True end
      | _ => fun _ => True
      end a
  end.

End Calls.

Definition jkout {S X R} (o : kres S X R) : list (S * X) := match o with KTransmuted k v _ => [(k, v)] | KDropped _ => [] end.
Definition jkred {S X R} (o : kres S X R) : R := match o with KTransmuted _ _ r | KDropped r => r end.
(** The new key has the hash of the old one. *)
Definition jkeeps {E : Env} {K S X R : Type} {KK : Key K} {KS : Key S} (k : K) (o : kres S X R) : Prop :=
  match o with KTransmuted k' _ _ => hashk k' = hashk k | KDropped _ => True end.

(** * transform_with_transmuted: the left map's keys and values are kept *)
Section TM.
Context {E : Env} {K V L W R : Type}.
Notation A := (jreply K V L W K V (vres V R) (vres V R) (kres K V R) R).
Notation jitem := (jitem K V L W (vres V R) (vres V R) (kres K V R)).

Definition tm_red (i : jitem) : R := match i with IBoth _ _ o | ILeft _ o => jvred o | IRight _ o => jkred o end.
Definition tm_cost (i : jitem) : list (K + V) := match i with IBoth x _ o | ILeft x o => jcost x o | IRight _ _ => [] end.
Definition tm_becomes (tr : list (event (A := A))) (i : jitem) (out : list (K * V)) : Prop :=
  called tr i /\ match i with IBoth x _ o | ILeft x o => jbecomes tr x o out | IRight _ o => out = jkout o end.

Definition tm_steady {KK : Key K} {KL : Key L} (e : event (A := A)) : Prop :=
  jsteady e /\ match jsee e with ItOp (IRight y o) => jkeeps (fst y) o | _ => True end.
End TM.

(** * transmute_with_transformed: the right map's *)
Section MT.
Context {E : Env} {K V L W R : Type}.
Notation A := (jreply K V L W L W (vres W R) (kres L W R) (vres W R) R).
Notation jitem := (jitem K V L W (vres W R) (kres L W R) (vres W R)).

Definition mt_red (i : jitem) : R := match i with IBoth _ _ o | IRight _ o => jvred o | ILeft _ o => jkred o end.
Definition mt_cost (i : jitem) : list (L + W) := match i with IBoth _ y o | IRight y o => jcost y o | ILeft _ _ => [] end.
Definition mt_becomes (tr : list (event (A := A))) (i : jitem) (out : list (L * W)) : Prop :=
  called tr i /\ match i with IBoth _ y o | IRight y o => jbecomes tr y o out | ILeft _ o => out = jkout o end.

Definition mt_steady {KK : Key K} {KL : Key L} (e : event (A := A)) : Prop :=
  jsteady e /\ match jsee e with ItOp (ILeft x o) => jkeeps (fst x) o | _ => True end.
End MT.

(** * transmute_with_transmuted *)
Section MM.
Context {E : Env} {K V L W S X R : Type}.
Notation A := (jreply K V L W Empty_set Empty_set (kres S X R) (kres S X R) (kres S X R) R).
Notation jitem := (jitem K V L W (kres S X R) (kres S X R) (kres S X R)).

Definition mm_out (i : jitem) : kres S X R := match i with IBoth _ _ o | ILeft _ o | IRight _ o => o end.
Definition mm_red (i : jitem) : R := jkred (mm_out i).
Definition mm_cost (i : jitem) : list (Empty_set + Empty_set) := [].
Definition mm_becomes (tr : list (event (A := A))) (i : jitem) (out : list (S * X)) : Prop :=
  called tr i /\ out = jkout (mm_out i).

(** The hashes of the keys of both maps, and of the new keys. *)
Definition mm_steady {KK : Key K} {KL : Key L} {KS : Key S} (e : event (A := A)) : Prop :=
  match e with
  | existT _ q a =>
      match q return option (A q) -> Prop with
      | JHash k => fun a => match a with Some h => proj1_sig h = hashk k | None => True end
      | JHash' k => fun a => match a with Some h => proj1_sig h = hashk k | None => True end
      | JBoth x y => fun a => match a with Some o => jkeeps (fst x) o \/ jkeeps (fst y) o | None => True end
      | JLeft x => fun a => match a with Some o => jkeeps (fst x) o | None => True end
      | JRight y => fun a => match a with Some o => jkeeps (fst y) o | None => True end
      | _ => fun _ => True
      end a
  end.
End MM.
