(** How C56 speaks of calls, copies and depth; nothing here looks into the
    operations. *)
From Coq Require Import NArith List Bool Permutation.
From Verif Require Import Base Words Flag Bia Node Eff Ask.
Import ListNotations.
Open Scope N_scope.

Section SpecAsk.
Context {E : Env} {K V L W : Type}.
Notation event := (event (A := @reply E K V L W)).

(** The call was a comparison and it was answered "equal". *)
Definition yes (e : event) : bool :=
  match e with
  | existT _ c a =>
      match c return option (reply c) -> bool with
      | CEq _ _ => fun a => match a with Some b => b | None => false end
      | _ => fun _ => false
      end a
  end.
Definition no_yes (tr : list event) : Prop := Forall (fun e => yes e = false) tr.

(** What is called. *)
Definition is_eq (c : call K V L W) : bool := match c with CEq _ _ => true | _ => false end.
Definition is_hash (c : call K V L W) : bool := match c with CHash _ => true | _ => false end.
Definition is_hash_q (c : call K V L W) : bool := match c with CHashQ _ => true | _ => false end.
Definition is_key (c : call K V L W) : bool := match c with CKey _ => true | _ => false end.
Definition is_value (c : call K V L W) : bool := match c with CValue _ => true | _ => false end.
Definition is_into (c : call K V L W) : bool := match c with CInto _ | CIntoV _ => true | _ => false end.
Definition count (p : call K V L W -> bool) (tr : list event) : N :=
  N.of_nat (length (filter (fun e => p (asked e)) tr)).
Definition no_into (tr : list event) : Prop := Forall (fun e => is_into (asked e) = false) tr.

(** A call panicked. *)
Definition failed (tr : list event) : Prop := exists c, In (broke c) tr.

(** [e'] is [e] itself, or its parts are what cloning those of [e] answered. *)
Definition copied (tr : list event) (e e' : K * V) : Prop :=
  e' = e \/ (In (answer (CKey (fst e)) (fst e')) tr /\ In (answer (CValue (snd e)) (snd e')) tr).

(** The most branches on a way down. *)
Fixpoint branches (n : mnode K V) : N :=
  match n with
  | MC b => 1 + fold_right N.max 0 (map branches (bvalues b))
  | _ => 0
  end.

(** The length of the longest collision list. *)
Fixpoint longest (n : mnode K V) : N :=
  match n with
  | MC b => fold_right N.max 0 (map longest (bvalues b))
  | ML l => lenN (l_visit l)
  | MS _ => 1
  end.

(** The hashes are in order: a hash answered is the one of its key, a clone and
    a converted key have the hash of the original, and keys said to be equal
    have the same hash.  [==] need not be reflexive, symmetric or transitive,
    nor answer the same way twice. *)
Definition steady {KK : Key K} {KL : Key L} (e : event) : Prop :=
  match e with
  | existT _ c a =>
      match c return option (reply c) -> Prop with
      | CEq k q => fun a => match a with Some true => hashk k = hashk q | _ => True end
      | CHashQ q => fun a => match a with Some h => proj1_sig h = hashk q | None => True end
      | CHash k => fun a => match a with Some h => proj1_sig h = hashk k | None => True end
      | CKey k => fun a => match a with Some k' => hashk k' = hashk k | None => True end
      | CInto q => fun a => match a with Some k => hashk k = hashk q | None => True end
      | _ => fun _ => True
      end a
  end.

End SpecAsk.
