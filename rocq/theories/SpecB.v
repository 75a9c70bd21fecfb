(** What a rebuild may cost, in terms of the entries of the maps. *)
From Coq Require Import NArith List Bool.
From Verif Require Import Base Bia Spec Trans Heap SpecH.
Import ListNotations.
Open Scope N_scope.

(** The entries the operation changes or drops. *)
Definition touched {A V R} (op : transform_op A V R) (l : list A) : list A :=
  filter (fun e => match tcall op e with VUnchanged _ => false | _ => true end) l.

(** The sum of a price over a list. *)
Fixpoint total {A} (price : A -> nat) (l : list A) : nat :=
  match l with [] => 0%nat | a :: l => (price a + total price l)%nat end.

(** The handle [m] is part of the structure under [n]: a branch, a list or the
    rest of one, or a leaf. *)
Inductive below {K V} (h : heap K V) : hnode -> hnode -> Prop :=
| be_self n : below h n n
| be_C a c child m : nth_error h a = Some (CellC c) -> In child (bvalues c) -> below h child m -> below h (HC a) m
| be_L a k v next z m : nth_error h a = Some (CellL k v next z) -> below h (hnext_node next) m -> below h (HL a) m.
