(** Where a key lies in a trie, and which of the two operands a constant
    UnchangedL or UnchangedR of transform_with_transformed takes for the left
    one when it meets the key. *)
From Coq Require Import NArith List Bool.
From Verif Require Import Base Bia Node Api Trans.
Import ListNotations.
Open Scope N_scope.

Section Sides.
Context {E : Env} {K V : Type} {KK : Key K}.

(** The entries of a collision list or leaf (lnode.rs:6-9, :30-35, snode.rs:6-9). *)
Definition next_visit (n : lnext K V) : list (K * V) :=
  match n with NL l => l_visit l | NS s => s_visit s end.
Definition is_list (n : lnext K V) : bool := match n with NL _ => true | NS _ => false end.

(** The collision lists and leaves of a trie with the number of branches above
    them (cnode.rs:9-11, mnode.rs:6-10), in the order of visit. *)
Fixpoint leaves (n : mnode K V) : list (N * lnext K V) :=
  match n with
  | MC (BIA _ values _) => map (fun x => (fst x + 1, snd x)) (concat (map leaves values))
  | ML l => [(0, NL l)]
  | MS s => [(0, NS s)]
  end.

(** The number of branches above the key with class [c], and whether it lies in
    a collision list. *)
Definition place (n : mnode K V) (c : C) : option (N * bool) :=
  match find (fun x => existsb (fun e => ceqb (cls (fst e)) c) (next_visit (snd x))) (leaves n) with
  | Some (d, x) => Some (d, is_list x)
  | None => None
  end.

(** The number alone. *)
Definition level (n : mnode K V) (c : C) : N := match place n c with Some (d, _) => d | None => 0 end.

(** Whether two leaves or lists meet with the operands exchanged.  A leaf or
    list against a branch exchanges them (snode.rs:106, lnode.rs:218), a leaf
    against a list exchanges them (snode.rs:107, mnode.rs:191). *)
Definition crossed (a b : N * bool) : bool :=
  if fst a <? fst b then negb (snd a && negb (snd b)) else negb (snd a) && snd b.
Definition turned (m right : mnode K V) (c : C) : bool :=
  match place m c, place right c with
  | Some a, Some b => crossed a b
  | _, _ => false
  end.

(** The closures that answer what the constants do: transformations.rs:39-49
    leaves the constants as they are while snode.rs and lnode.rs exchange the
    operands and flip the answers back (results.rs:241-253). *)
Definition sided_left {R} (r : R) (m right : mnode K V) (e e' : K * V) : bres V R :=
  if turned m right (cls (fst e)) then BUnchangedR r else BUnchangedL r.
Definition sided_right {R} (r : R) (m right : mnode K V) (e e' : K * V) : bres V R :=
  if turned m right (cls (fst e)) then BUnchangedL r else BUnchangedR r.

(** Both tries are branches. *)
Definition branches (m right : mnode K V) : bool :=
  match m, right with MC _, MC _ => true | _, _ => false end.

(** The one combination with each constant that cnode.rs:380-430 answers without
    looking at the tries. *)
Definition early_left {R} (lop rop : transform_op (K * V) V R) : bool :=
  match lop, rop with TUnchanged _, TRemoved _ => true | _, _ => false end.
Definition early_right {R} (lop rop : transform_op (K * V) V R) : bool :=
  match lop, rop with TRemoved _, TUnchanged _ => true | _, _ => false end.

End Sides.
