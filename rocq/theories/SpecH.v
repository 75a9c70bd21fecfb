(** What a handle into a heap stands for, and which cells belong to it. *)
From Coq Require Import NArith Arith List Bool.
From Verif Require Import Base Bia Node Heap.
Import ListNotations.

Section SpecH.
Context {K V : Type}.
Notation heap := (heap K V).

(** A later heap: every cell is still there, unchanged. *)
Definition ext (h h' : heap) : Prop := exists new, h' = h ++ new.

(** The handle stands for the tree.  Cells point to older cells only. *)
Inductive rep_s (h : heap) : addr -> snode K V -> Prop :=
| rep_SN a k v : nth_error h a = Some (CellS k v) -> rep_s h a (SN k v).

Inductive rep_l (h : heap) : addr -> lnode K V -> Prop :=
| rep_LL a k v b l z : nth_error h a = Some (CellL k v (XL b) z) -> (b < a)%nat -> rep_l h b l -> rep_l h a (LNL k v l z)
| rep_LS a k v b s z : nth_error h a = Some (CellL k v (XS b) z) -> (b < a)%nat -> rep_s h b s -> rep_l h a (LNS k v s z).

Inductive rep (h : heap) : hnode -> mnode K V -> Prop :=
| rep_MC a bits hs ts x : nth_error h a = Some (CellC (BIA bits hs x)) -> Forall2 (rep h) hs ts ->
    Forall (fun c => (addr_of c < a)%nat) hs -> rep h (HC a) (MC (BIA bits ts x))
| rep_ML a l : rep_l h a l -> rep h (HL a) (ML l)
| rep_MS a s : rep_s h a s -> rep h (HS a) (MS s).

(** The cell [x] is part of the structure under the handle. *)
Inductive inside (h : heap) : hnode -> addr -> Prop :=
| in_self n : inside h n (addr_of n)
| in_C a c child x : nth_error h a = Some (CellC c) -> In child (bvalues c) -> inside h child x -> inside h (HC a) x
| in_L a k v next z x : nth_error h a = Some (CellL k v next z) -> inside h (hnext_node next) x -> inside h (HL a) x.

(** Everything under [n'] is new since [h] or was already under [n]. *)
Definition shares (h : heap) (n : hnode) (h' : heap) (n' : hnode) : Prop :=
  forall x, inside h' n' x -> (length h <= x)%nat \/ inside h n x.

End SpecH.

(** How many entries have the hash of the key. *)
Definition rivals {E : Env} {K V Q} {KK : Key K} {KQ : Key Q} (q : Q) (l : list (K * V)) : nat :=
  length (filter (fun e => N.eqb (hash (cls (fst e))) (hashk q)) l).

(** Two runs end the same way, with related results. *)
Inductive refines {A B} (P : A -> B -> Prop) : outcome A -> outcome B -> Prop :=
| rf_ret a b : P a b -> refines P (Ret a) (Ret b)
| rf_panic : refines P Panic Panic
| rf_diverge : refines P Diverge Diverge.

(** Related options. *)
Inductive orel {A B} (P : A -> B -> Prop) : option A -> option B -> Prop :=
| orel_some a b : P a b -> orel P (Some a) (Some b)
| orel_none : orel P None None.
