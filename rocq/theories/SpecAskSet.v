(** How C62 reads a trace of calls of an operation of a set, and of the transfute
    operations; nothing here looks into the operations.  A key of a set is shown with
    [tt], as in [map_visit]. *)
From Coq Require Import NArith List Bool Permutation.
From Verif Require Import Base Words Flag Bia Node Trans Joint JointT Sets Eff EffApi Ask SpecAsk AskT SpecAskT AskJ SpecAskJ.
Import ListNotations.
Open Scope N_scope.

Section Answers.
Context {R : Type}.
Definition sred (o : sres R) : R := match o with SUnchanged r | SDropped r => r end.
Definition skred {S} (o : skres S R) : R := match o with SKTransmuted _ r | SKDropped r => r end.
Definition sbred (o : sbres R) : R := match o with SBUnchangedLR r | SBUnchangedL r | SBUnchangedR r | SBDropped r => r end.
Definition skout {S} (o : skres S R) : list (S * unit) := match o with SKTransmuted k _ => [(k, tt)] | SKDropped _ => [] end.
(** A key that is kept may be cloned. *)
Definition scost {K} (x : K * unit) (o : sres R) : list (K + unit) := match o with SUnchanged _ => [inl (fst x)] | SDropped _ => [] end.
(** The new key has the hash of the old one. *)
Definition skkeeps {E : Env} {K S} {KK : Key K} {KS : Key S} (k : K) (o : skres S R) : Prop :=
  match o with SKTransmuted k' _ => hashk k' = hashk k | SKDropped _ => True end.
End Answers.

(** * find, insert and remove *)
(** [k'] is [k] itself, or what cloning [k] answered. *)
Definition key_copied {E : Env} {K L} (tr : list (event (A := @reply E K unit L unit))) (k k' : K) : Prop :=
  k' = k \/ In (answer (A := @reply E K unit L unit) (CKey k) k') tr.

(** * transform and transmute *)
Section One.
Context {E : Env} {K R : Type}.
Definition s_red (i : (K * unit) * sres R) : R := sred (snd i).
Definition s_cost (i : (K * unit) * sres R) : list (K + unit) := scost (fst i) (snd i).
Definition s_kept (i : (K * unit) * sres R) : bool := match snd i with SUnchanged _ => true | SDropped _ => false end.
Definition s_becomes (tr : list (event (A := treply K unit (sres R) R))) (i : (K * unit) * sres R) (out : list (K * unit)) : Prop :=
  match snd i with
  | SUnchanged _ => out = [fst i] \/ exists k, key_clone tr (fst (fst i)) k /\ out = [(k, tt)]
  | SDropped _ => out = []
  end.

Context {S : Type}.
Definition sk_red (i : (K * unit) * skres S R) : R := skred (snd i).
Definition sk_cost (i : (K * unit) * skres S R) : list (K + unit) := [].
Definition sk_becomes (i : (K * unit) * skres S R) : list (S * unit) := skout (snd i).
Definition sk_steady {KK : Key K} {KS : Key S} (e : event (A := treply K unit (skres S R) R)) : Prop :=
  match e with
  | existT _ q a =>
      match q return option (treply K unit (skres S R) R q) -> Prop with
      | TOp x => fun a => match a with Some o => skkeeps (fst x) o | None => True end
      | _ => fun _ => True
      end a
  end.
End One.

(** * The joint operations *)
Section Kept.
Context {E : Env} {KL VL KR VR K TB TL TR R : Type}.
Notation event := (event (A := jreply KL VL KR VR K unit TB TL TR R)).
Definition s_keeps (tr : list event) (x : K * unit) (out : list (K * unit)) : Prop :=
  out = [x] \/ exists k, jkey_clone tr (fst x) k /\ out = [(k, tt)].
Definition sj_becomes (tr : list event) (x : K * unit) (o : sres R) (out : list (K * unit)) : Prop :=
  match o with SUnchanged _ => s_keeps tr x out | SDropped _ => out = [] end.
End Kept.

Section TM.
Context {E : Env} {K L R : Type}.
Notation A := (jreply K unit L unit K unit (sres R) (sres R) (skres K R) R).
Notation jitem := (jitem K unit L unit (sres R) (sres R) (skres K R)).
Definition stm_red (i : jitem) : R := match i with IBoth _ _ o | ILeft _ o => sred o | IRight _ o => skred o end.
Definition stm_cost (i : jitem) : list (K + unit) := match i with IBoth x _ o | ILeft x o => scost x o | IRight _ _ => [] end.
Definition stm_becomes (tr : list (event (A := A))) (i : jitem) (out : list (K * unit)) : Prop :=
  called tr i /\ match i with IBoth x _ o | ILeft x o => sj_becomes tr x o out | IRight _ o => out = skout o end.
Definition stm_steady {KK : Key K} {KL : Key L} (e : event (A := A)) : Prop :=
  jsteady e /\ match jsee e with ItOp (IRight y o) => skkeeps (fst y) o | _ => True end.
End TM.

Section MT.
Context {E : Env} {K L R : Type}.
Notation A := (jreply K unit L unit L unit (sres R) (skres L R) (sres R) R).
Notation jitem := (jitem K unit L unit (sres R) (skres L R) (sres R)).
Definition smt_red (i : jitem) : R := match i with IBoth _ _ o | IRight _ o => sred o | ILeft _ o => skred o end.
Definition smt_cost (i : jitem) : list (L + unit) := match i with IBoth _ y o | IRight y o => scost y o | ILeft _ _ => [] end.
Definition smt_becomes (tr : list (event (A := A))) (i : jitem) (out : list (L * unit)) : Prop :=
  called tr i /\ match i with IBoth _ y o | IRight y o => sj_becomes tr y o out | ILeft _ o => out = skout o end.
Definition smt_steady {KK : Key K} {KL : Key L} (e : event (A := A)) : Prop :=
  jsteady e /\ match jsee e with ItOp (ILeft x o) => skkeeps (fst x) o | _ => True end.
End MT.

Section MM.
Context {E : Env} {K L S R : Type}.
Notation A := (jreply K unit L unit Empty_set Empty_set (skres S R) (skres S R) (skres S R) R).
Notation jitem := (jitem K unit L unit (skres S R) (skres S R) (skres S R)).
Definition smm_out (i : jitem) : skres S R := match i with IBoth _ _ o | ILeft _ o | IRight _ o => o end.
Definition smm_red (i : jitem) : R := skred (smm_out i).
Definition smm_cost (i : jitem) : list (Empty_set + Empty_set) := [].
Definition smm_becomes (tr : list (event (A := A))) (i : jitem) (out : list (S * unit)) : Prop :=
  called tr i /\ out = skout (smm_out i).
Definition smm_steady {KK : Key K} {KL : Key L} {KS : Key S} (e : event (A := A)) : Prop :=
  match e with
  | existT _ q a =>
      match q return option (A q) -> Prop with
      | JHash k => fun a => match a with Some h => proj1_sig h = hashk k | None => True end
      | JHash' k => fun a => match a with Some h => proj1_sig h = hashk k | None => True end
      | JBoth x y => fun a => match a with Some o => skkeeps (fst x) o \/ skkeeps (fst y) o | None => True end
      | JLeft x => fun a => match a with Some o => skkeeps (fst x) o | None => True end
      | JRight y => fun a => match a with Some o => skkeeps (fst y) o | None => True end
      | _ => fun _ => True
      end a
  end.
End MM.

Section TT.
Context {E : Env} {K R : Type}.
Notation A := (jreply K unit K unit K unit (sbres R) (sres R) (sres R) R).
Notation event := (event (A := A)).
Notation jitem := (jitem K unit K unit (sbres R) (sres R) (sres R)).
Definition stt_red (i : jitem) : R := match i with IBoth _ _ o => sbred o | ILeft _ o | IRight _ o => sred o end.
(** The most that may be cloned. *)
Definition stt_cost (i : jitem) : list (K + unit) :=
  match i with
  | IBoth x y (SBUnchangedLR _) => [inl (fst x); inl (fst y)]
  | IBoth x _ (SBUnchangedL _) => [inl (fst x)]
  | IBoth _ y (SBUnchangedR _) => [inl (fst y)]
  | IBoth _ _ (SBDropped _) => []
  | ILeft x o | IRight x o => scost x o
  end.
Definition stt_joins (tr : list event) (x y : K * unit) (o : sbres R) (out : list (K * unit)) : Prop :=
  match o with
  | SBUnchangedLR _ => s_keeps tr x out \/ s_keeps tr y out
  | SBUnchangedL _ => s_keeps tr x out
  | SBUnchangedR _ => s_keeps tr y out
  | SBDropped _ => out = []
  end.
Definition stt_becomes (tr : list event) (i : jitem) (out : list (K * unit)) : Prop :=
  called tr i /\ match i with IBoth x y o => stt_joins tr x y o out | ILeft x o | IRight x o => sj_becomes tr x o out end.

(** What the closures never answered. *)
Definition s_never_drops_left (tr : list event) : Prop := forall x r, ~ In (answer (A := A) (JLeft x) (SDropped r)) tr.
Definition s_never_keeps_left (tr : list event) : Prop := forall x r, ~ In (answer (A := A) (JLeft x) (SUnchanged r)) tr.
Definition s_never_both_left (tr : list event) : Prop := forall x y r, ~ In (answer (A := A) (JBoth x y) (SBUnchangedL r)) tr.
Definition s_never_drops_right (tr : list event) : Prop := forall y r, ~ In (answer (A := A) (JRight y) (SDropped r)) tr.
Definition s_never_keeps_right (tr : list event) : Prop := forall y r, ~ In (answer (A := A) (JRight y) (SUnchanged r)) tr.
Definition s_never_both_right (tr : list event) : Prop := forall x y r, ~ In (answer (A := A) (JBoth x y) (SBUnchangedR r)) tr.
(** No key of the left set was kept; or nothing was kept as of the right set while keys of
    the left set were dropped. *)
Definition s_calm_left (tr : list event) : Prop :=
  s_never_keeps_left tr \/ (s_never_both_right tr /\ (s_never_drops_left tr \/ s_never_keeps_right tr)).
Definition s_calm_right (tr : list event) : Prop :=
  s_never_keeps_right tr \/ (s_never_both_left tr /\ (s_never_drops_right tr \/ s_never_keeps_left tr)).
(** Where a key may come from, through any number of clones. *)
Inductive skey_from (tr : list event) (ks : list K) : K -> Prop :=
| skf_in k : In k ks -> skey_from tr ks k
| skf_clone k k' : skey_from tr ks k -> In (answer (A := A) (JKey k) k') tr -> skey_from tr ks k'.
End TT.

(** * The transfute operations: the key of a new value is a clone of the old one *)
Section Fute.
Context {E : Env} {KL VL KR VR K V TB TL TR R : Type}.
Notation event := (event (A := jreply KL VL KR VR K V TB TL TR R)).
Definition f_becomes (tr : list event) (k : K) (o : skres V R) (out : list (K * V)) : Prop :=
  match o with SKTransmuted v _ => exists k', jkey_clone tr k k' /\ out = [(k', v)] | SKDropped _ => out = [] end.
Definition f_cost (k : K) (o : skres V R) : list (K + V) := match o with SKTransmuted _ _ => [inl k] | SKDropped _ => [] end.
End Fute.

Section TF.
Context {E : Env} {K V W R : Type}.
Notation A := (jreply K V K W K V (vres V R) (vres V R) (skres V R) R).
Notation jitem := (jitem K V K W (vres V R) (vres V R) (skres V R)).
Definition tf_red (i : jitem) : R := match i with IBoth _ _ o | ILeft _ o => jvred o | IRight _ o => skred o end.
Definition tf_cost (i : jitem) : list (K + V) := match i with IBoth x _ o | ILeft x o => jcost x o | IRight y o => f_cost (fst y) o end.
Definition tf_becomes (tr : list (event (A := A))) (i : jitem) (out : list (K * V)) : Prop :=
  called tr i /\ match i with IBoth x _ o | ILeft x o => jbecomes tr x o out | IRight y o => f_becomes tr (fst y) o out end.
End TF.

Section FT.
Context {E : Env} {K V W R : Type}.
Notation A := (jreply K V K W K W (vres W R) (skres W R) (vres W R) R).
Notation jitem := (jitem K V K W (vres W R) (skres W R) (vres W R)).
Definition ft_red (i : jitem) : R := match i with IBoth _ _ o | IRight _ o => jvred o | ILeft _ o => skred o end.
Definition ft_cost (i : jitem) : list (K + W) := match i with IBoth _ y o | IRight y o => jcost y o | ILeft x o => f_cost (fst x) o end.
Definition ft_becomes (tr : list (event (A := A))) (i : jitem) (out : list (K * W)) : Prop :=
  called tr i /\ match i with IBoth _ y o | IRight y o => jbecomes tr y o out | ILeft x o => f_becomes tr (fst x) o out end.
End FT.

(** * Constants for two keys said to be equal *)
Section Constant.
Context {E : Env} {KL VL KR VR K V TB TL TR R : Type}.
Notation event := (event (A := jreply KL VL KR VR K V TB TL TR R)).
Definition not_both (e : event) : bool := match asked e with JBoth _ _ => false | _ => true end.
(** The closure for two keys answered [c]. *)
Definition both_says (c : TB) (e : event) : Prop :=
  match e with
  | existT _ q a =>
      match q return option (jreply KL VL KR VR K V TB TL TR R q) -> Prop with
      | JBoth _ _ => fun a => a = Some c
      | _ => fun _ => True
      end a
  end.
End Constant.
(** The constant's answer. *)
Definition tw_says {R} (w : tway R) : option (sres R) :=
  match w with TwClosure => None | TwUnchanged r => Some (SUnchanged r) | TwRemoved r => Some (SDropped r) end.
Definition mw_says {S R} (w : mway R) : option (skres S R) := match w with MwClosure => None | MwRemoved r => Some (SKDropped r) end.
