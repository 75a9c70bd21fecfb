(** How C61 reads a trace of calls of transform_with_transformed; nothing here looks
    into the operation. *)
From Coq Require Import NArith List Bool Permutation.
From Verif Require Import Base Words Flag Bia Node Trans Joint JointT Eff Ask AskJ SpecAskT SpecAskJ.
Import ListNotations.
Open Scope N_scope.

Section TT.
Context {E : Env} {K V R : Type}.
Notation A := (jreply K V K V K V (bres V R) (vres V R) (vres V R) R).
Notation event := (event (A := A)).
Notation jitem := (jitem K V K V (bres V R) (vres V R) (vres V R)).

Definition bred (o : bres V R) : R :=
  match o with BUnchangedLR r | BUnchangedL r | BUnchangedR r | BTransformed _ r | BDropped r => r end.

(** Kept: the entry itself, or a clone of it. *)
Definition tt_kept (tr : list event) (x : K * V) (out : list (K * V)) : Prop :=
  out = [x] \/ exists k v, jkey_clone tr (fst x) k /\ jvalue_clone tr (snd x) v /\ out = [(k, v)].

(** What became of two entries with keys said to be equal. *)
Definition tt_joins (tr : list event) (x y : K * V) (o : bres V R) (out : list (K * V)) : Prop :=
  match o with
  | BUnchangedLR _ => tt_kept tr x out \/ tt_kept tr y out
  | BUnchangedL _ => tt_kept tr x out
  | BUnchangedR _ => tt_kept tr y out
  | BTransformed v _ => exists k, (jkey_clone tr (fst x) k \/ jkey_clone tr (fst y) k) /\ out = [(k, v)]
  | BDropped _ => out = []
  end.

Definition tt_red (i : jitem) : R := match i with IBoth _ _ o => bred o | ILeft _ o | IRight _ o => jvred o end.
(** The most that may be cloned. *)
Definition tt_cost (i : jitem) : list (K + V) :=
  match i with
  | IBoth x y (BUnchangedLR _) => [inl (fst x); inr (snd x); inl (fst y); inr (snd y)]
  | IBoth x _ (BUnchangedL _) => [inl (fst x); inr (snd x)]
  | IBoth _ y (BUnchangedR _) => [inl (fst y); inr (snd y)]
  | IBoth x y (BTransformed _ _) => [inl (fst x); inl (fst y)]
  | IBoth _ _ (BDropped _) => []
  | ILeft x o | IRight x o => jcost x o
  end.
Definition tt_becomes (tr : list event) (i : jitem) (out : list (K * V)) : Prop :=
  called tr i /\ match i with IBoth x y o => tt_joins tr x y o out | ILeft x o | IRight x o => jbecomes tr x o out end.

(** * What the closures never answered *)
Definition never_drops_left (tr : list event) : Prop := forall x r, ~ In (answer (A := A) (JLeft x) (VDropped r)) tr.
Definition never_keeps_left (tr : list event) : Prop := forall x r, ~ In (answer (A := A) (JLeft x) (VUnchanged r)) tr.
Definition never_both_left (tr : list event) : Prop := forall x y r, ~ In (answer (A := A) (JBoth x y) (BUnchangedL r)) tr.
Definition never_drops_right (tr : list event) : Prop := forall y r, ~ In (answer (A := A) (JRight y) (VDropped r)) tr.
Definition never_keeps_right (tr : list event) : Prop := forall y r, ~ In (answer (A := A) (JRight y) (VUnchanged r)) tr.
Definition never_both_right (tr : list event) : Prop := forall x y r, ~ In (answer (A := A) (JBoth x y) (BUnchangedR r)) tr.

(** No entry of the left map was kept; or nothing was kept as of the right map while
    entries of the left map were dropped. *)
Definition calm_left (tr : list event) : Prop :=
  never_keeps_left tr \/ (never_both_right tr /\ (never_drops_left tr \/ never_keeps_right tr)).
Definition calm_right (tr : list event) : Prop :=
  never_keeps_right tr \/ (never_both_left tr /\ (never_drops_right tr \/ never_keeps_left tr)).
(** Where a key and a value may come from, through any number of clones. *)
Inductive key_from (tr : list event) (ks : list K) : K -> Prop :=
| kf_in k : In k ks -> key_from tr ks k
| kf_clone k k' : key_from tr ks k -> In (answer (A := A) (JKey k) k') tr -> key_from tr ks k'.
Inductive value_from (tr : list event) (vs : list V) : V -> Prop :=
| vf_in v : In v vs -> value_from tr vs v
| vf_clone v v' : value_from tr vs v -> In (answer (A := A) (JValue v) v') tr -> value_from tr vs v'
| vf_both x y v r : In (answer (A := A) (JBoth x y) (BTransformed v r)) tr -> value_from tr vs v
| vf_left x v r : In (answer (A := A) (JLeft x) (VTransformed v r)) tr -> value_from tr vs v
| vf_right y v r : In (answer (A := A) (JRight y) (VTransformed v r)) tr -> value_from tr vs v.
End TT.
