(** Independent specification of what [reduce_op] makes when nothing is assumed
    of it: bracketings, and operations that differ only in their reductions.
    Nothing here mentions tries. *)
From Coq Require Import List.
From Verif Require Import Base Spec Trans Joint SpecT SpecJ.
Import ListNotations.

(** * Bracketings *)
Section Brackets.
Context {A : Type}.

(** An expression in [ReduceT::default()], values and [reduce_op]. *)
Inductive btree : Type := BDef | BLeaf (a : A) | BNode (l r : btree).

(** Its values, from left to right. *)
Fixpoint bleaves (t : btree) : list A :=
  match t with BDef => [] | BLeaf a => [a] | BNode l r => bleaves l ++ bleaves r end.

(** What it comes to. *)
Fixpoint beval {R} (rdef : R) (rd : R -> R -> R) (f : A -> R) (t : btree) : R :=
  match t with BDef => rdef | BLeaf a => f a | BNode l r => rd (beval rdef rd f l) (beval rdef rd f r) end.
End Brackets.
Arguments btree A : clear implicits.

(** The reductions of the answers of three closures. *)
From Verif Require Import EffApi.
Definition three {I J R} (fB : I -> J -> R) (fL : I -> R) (fR : J -> R) (q : jcalls I J) : R :=
  match q with AskBoth e e' => fB e e' | AskLeft e => fL e | AskRight e' => fR e' end.

(** * The same operation with other reductions *)
Section Maps.
Context {R R' : Type} (h : R -> R').

Definition omap {A B} (f : A -> B) (o : outcome A) : outcome B :=
  match o with Ret a => Ret (f a) | Panic => Panic | Diverge => Diverge end.

Definition vmap {V} (v : vres V R) : vres V R' :=
  match v with VUnchanged r => VUnchanged (h r) | VTransformed v r => VTransformed v (h r) | VDropped r => VDropped (h r) end.
Definition kmap {S X} (k : kres S X R) : kres S X R' :=
  match k with KTransmuted k v r => KTransmuted k v (h r) | KDropped r => KDropped (h r) end.
Definition bmap {V} (b : bres V R) : bres V R' :=
  match b with
  | BUnchangedLR r => BUnchangedLR (h r) | BUnchangedL r => BUnchangedL (h r) | BUnchangedR r => BUnchangedR (h r)
  | BTransformed v r => BTransformed v (h r) | BDropped r => BDropped (h r)
  end.

(** Operations that answer alike, up to [h]. *)
Definition tover {A V} (op : transform_op A V R) (op' : transform_op A V R') : Prop :=
  match op, op' with
  | TGeneric f, TGeneric f' => forall a, f' a = vmap (f a)
  | TUnchanged r, TUnchanged r' => r' = h r
  | TRemoved r, TRemoved r' => r' = h r
  | _, _ => False
  end.
Definition mover {A S X} (op : transmute_op A S X R) (op' : transmute_op A S X R') : Prop :=
  match op, op' with
  | MGeneric f, MGeneric f' => forall a, f' a = kmap (f a)
  | MRemoved r, MRemoved r' => r' = h r
  | _, _ => False
  end.
Definition jover {A V} (op : joint_op A V R) (op' : joint_op A V R') : Prop :=
  match op, op' with
  | JGeneric f b, JGeneric f' b' => b' = b /\ forall x y, f' x y = bmap (f x y)
  | JUnchangedLR r, JUnchangedLR r' => r' = h r
  | JUnchangedL r, JUnchangedL r' => r' = h r
  | JUnchangedR r, JUnchangedR r' => r' = h r
  | JRemoved r, JRemoved r' => r' = h r
  | _, _ => False
  end.
End Maps.

(** * Operations whose every reduction has a property *)
Section All.
Context {R : Type} (P : R -> Prop).

(** The closure's on the arguments [D]; a constant's in any case. *)
Definition t_all {A V} (D : A -> Prop) (op : transform_op A V R) : Prop :=
  match op with TGeneric f => forall a, D a -> P (t_red (f a)) | TUnchanged r | TRemoved r => P r end.
Definition m_all {A S X} (D : A -> Prop) (op : transmute_op A S X R) : Prop :=
  match op with MGeneric f => forall a, D a -> P (m_red (f a)) | MRemoved r => P r end.
(** Operations as a client makes them: not flipped. *)
Definition j_all {A V} (D : A -> A -> Prop) (op : joint_op A V R) : Prop :=
  match op with
  | JGeneric f flipped => flipped = false /\ forall a b, D a b -> P (b_red (f a b))
  | JUnchangedLR r | JUnchangedL r | JUnchangedR r | JRemoved r => P r
  end.
End All.

(** The arguments of a merge: entries of both maps with equal keys, entries of
    one map whose keys are not in the other. *)
Section Args.
Context {E : Env} {K V L W : Type} {KK : Key K} {KL : Key L} (ln : list (K * V)) (lr : list (L * W)).
Definition in_both (e : K * V) (e' : L * W) : Prop := In e ln /\ In e' lr /\ ecls e = ecls e'.
Definition in_left (e : K * V) : Prop := In e ln /\ lookup (ecls e) lr = None.
Definition in_right (e' : L * W) : Prop := In e' lr /\ lookup (ecls e') ln = None.
End Args.
