(** Operations passed to transform and its relatives, their results, and the
    blocks that every CNode traversal repeats (src/transformations.rs,
    src/results.rs, src/node/cnode.rs). *)
From Coq Require Import NArith List Bool.
From Verif Require Import Base Words Flag Bia Node.
Import ListNotations.
Open Scope N_scope.

(** results.rs, [MapTransformResult]. *)
Inductive vres (V R : Type) : Type :=
| VUnchanged (r : R)
| VTransformed (v : V) (r : R)
| VDropped (r : R).
Arguments VUnchanged {V R} r.
Arguments VTransformed {V R} v r.
Arguments VDropped {V R} r.

(** results.rs, [MapTransmuteResult]. *)
Inductive kres (S X R : Type) : Type :=
| KTransmuted (k : S) (v : X) (r : R)
| KDropped (r : R).
Arguments KTransmuted {S X R} k v r.
Arguments KDropped {S X R} r.

(** results.rs, [MapJointTransformResult]. *)
Inductive bres (V R : Type) : Type :=
| BUnchangedLR (r : R)
| BUnchangedL (r : R)
| BUnchangedR (r : R)
| BTransformed (v : V) (r : R)
| BDropped (r : R).
Arguments BUnchangedLR {V R} r.
Arguments BUnchangedL {V R} r.
Arguments BUnchangedR {V R} r.
Arguments BTransformed {V R} v r.
Arguments BDropped {V R} r.

(** results.rs, [MapJointTransformResult::flip]. *)
Definition bres_flip {V R} (b : bres V R) : bres V R :=
  match b with
  | BUnchangedL r => BUnchangedR r
  | BUnchangedR r => BUnchangedL r
  | _ => b
  end.

(** transformations.rs:151-159, [MapTransform].  [A] is the argument tuple of
    the closure: an entry, or a pair of entries for the joint operations. *)
Inductive transform_op (A V R : Type) : Type :=
| TGeneric (f : A -> vres V R)
| TUnchanged (r : R)
| TRemoved (r : R).
Arguments TGeneric {A V R} f.
Arguments TUnchanged {A V R} r.
Arguments TRemoved {A V R} r.

(** transformations.rs:161-190, [call], [call_transform_transmute] and
    [call_transmute_transform]. *)
Definition tcall {A V R} (op : transform_op A V R) (a : A) : vres V R :=
  match op with
  | TGeneric f => f a
  | TUnchanged r => VUnchanged r
  | TRemoved r => VDropped r
  end.

(** transformations.rs:192-217, [flip_transform_transmute] and
    [flip_transmute_transform]. *)
Definition tflip {A B V R} (op : transform_op (A * B) V R) : transform_op (B * A) V R :=
  match op with
  | TGeneric f => TGeneric (fun p => f (snd p, fst p))
  | TUnchanged r => TUnchanged r
  | TRemoved r => TRemoved r
  end.

(** transformations.rs:344-350, [MapTransmute]. *)
Inductive transmute_op (A S X R : Type) : Type :=
| MGeneric (f : A -> kres S X R)
| MRemoved (r : R).
Arguments MGeneric {A S X R} f.
Arguments MRemoved {A S X R} r.

(** transformations.rs:352-369, [call] and [call_transmute]. *)
Definition mcall {A S X R} (op : transmute_op A S X R) (a : A) : kres S X R :=
  match op with
  | MGeneric f => f a
  | MRemoved r => KDropped r
  end.

(** transformations.rs:371-382, [flip]. *)
Definition mflip {A B S X R} (op : transmute_op (A * B) S X R) : transmute_op (B * A) S X R :=
  match op with
  | MGeneric f => MGeneric (fun p => f (snd p, fst p))
  | MRemoved r => MRemoved r
  end.

(** transformations.rs:5-17, [MapJointTransform]. *)
Inductive joint_op (A V R : Type) : Type :=
| JGeneric (f : A -> A -> bres V R) (flipped : bool)
| JUnchangedLR (r : R)
| JUnchangedL (r : R)
| JUnchangedR (r : R)
| JRemoved (r : R).
Arguments JGeneric {A V R} f flipped.
Arguments JUnchangedLR {A V R} r.
Arguments JUnchangedL {A V R} r.
Arguments JUnchangedR {A V R} r.
Arguments JRemoved {A V R} r.

(** transformations.rs:20-37, [call]. *)
Definition jcall {A V R} (op : joint_op A V R) (a b : A) : bres V R :=
  match op with
  | JGeneric f flipped => if flipped then bres_flip (f b a) else f a b
  | JUnchangedLR r => BUnchangedLR r
  | JUnchangedL r => BUnchangedL r
  | JUnchangedR r => BUnchangedR r
  | JRemoved r => BDropped r
  end.

(** transformations.rs:39-49, [flip]. *)
Definition jflip {A V R} (op : joint_op A V R) : joint_op A V R :=
  match op with
  | JGeneric f flipped => JGeneric f (negb flipped)
  | _ => op
  end.

(** enums.rs, [ParallelismStrategy]. *)
Inductive strategy : Set := Sequential | MiddleIndex.

(** * Results of node traversals *)

(** results.rs, [MNodeTransmuteResult]; [LNodeTransmuteResult] (317) and
    [SNodeTransmuteResult] (389) have subsets of its cases. *)
Inductive nres (K V R : Type) : Type :=
| NRC (c : cnode K V) (r : R)
| NRL (l : lnode K V) (r : R)
| NRS (s : snode K V) (r : R)
| NRZ (r : R).
Arguments NRC {K V R} c r.
Arguments NRL {K V R} l r.
Arguments NRS {K V R} s r.
Arguments NRZ {K V R} r.

(** results.rs, [MNodeTransformResult]; [LNodeTransformResult] (275) and
    [SNodeTransformResult] (362) have subsets of its cases.  Its cases C, L, S
    and Removed are grouped under [TN]. *)
Inductive tres (K V R : Type) : Type :=
| TU (r : R)
| TN (n : nres K V R).
Arguments TU {K V R} r.
Arguments TN {K V R} n.

(** The node a traversal result carries, and its reduction. *)
Definition nnode {K V R} (n : nres K V R) : option (mnode K V) :=
  match n with
  | NRC c _ => Some (MC c)
  | NRL l _ => Some (ML l)
  | NRS s _ => Some (MS s)
  | NRZ _ => None
  end.
Definition nred {K V R} (n : nres K V R) : R :=
  match n with NRC _ r | NRL _ r | NRS _ r | NRZ r => r end.

(** The node a transform result stands for, given the node transformed. *)
Definition tout {K V R} (n : mnode K V) (t : tres K V R) : option (mnode K V) :=
  match t with TU _ => Some n | TN x => nnode x end.
Definition tred {K V R} (t : tres K V R) : R := match t with TU r => r | TN x => nred x end.
Definition tu {K V R} (t : tres K V R) : bool := match t with TU _ => true | TN _ => false end.

(** results.rs, [MNodeJointTransformResult] and [LNodeJointTransformResult]
    (294); cases C, L, S and Removed are grouped under [JN]. *)
Inductive jres (K V R : Type) : Type :=
| JLR (r : R)
| JL (r : R)
| JR (r : R)
| JN (n : nres K V R).
Arguments JLR {K V R} r.
Arguments JL {K V R} r.
Arguments JR {K V R} r.
Arguments JN {K V R} n.

(** results.rs:241-253, [MNodeJointTransformResult::flip]. *)
Definition jres_flip {K V R} (j : jres K V R) : jres K V R :=
  match j with
  | JL r => JR r
  | JR r => JL r
  | _ => j
  end.

(** * The loop of every CNode traversal *)

(** The mutable variables of the loops, e.g. cnode.rs:179-183, :488-493. *)
Record acc (K V R : Type) : Type := Acc {
  a_size : N;
  a_bits : N;
  a_values : list (mnode K V);
  a_ul : bool;
  a_ur : bool;
  a_red : R
}.
Arguments Acc {K V R} a_size a_bits a_values a_ul a_ur a_red.
Arguments a_size {K V R} a.
Arguments a_bits {K V R} a.
Arguments a_values {K V R} a.
Arguments a_ul {K V R} a.
Arguments a_ur {K V R} a.
Arguments a_red {K V R} a.

Section Loop.
Context {E : Env} {K V R : Type}.
(** [rdef] is [ReduceT::default()], [rd] is the caller's reduce_op. *)
Context (rdef : R) (rd : R -> R -> R).

(** cnode.rs:179-183. *)
Definition acc0 : acc K V R := Acc 0 0 [] true true rdef.

(** cnode.rs:189-192 and every other block like it: count, set the bit, push
    the node, reduce. *)
Definition push (a : acc K V R) (index : N) (n : mnode K V) (size : N) (r : R) : outcome (acc K V R) :=
  let* bit := unwrap_ok (nth_bit fw index) in
  let* bits := unwrap_ok (bit_insert (a_bits a) bit) in
  Ret (Acc (a_size a + size) bits (a_values a ++ [n]) (a_ul a) (a_ur a) (rd (a_red a) r)).

(** cnode.rs:194-218 and every other block like it: cases C, L, S, Removed. *)
Definition push_new (a : acc K V R) (index : N) (n : nres K V R) : outcome (acc K V R) :=
  match n with
  | NRC c r => push a index (MC c) (bextra c) r
  | NRL l r => push a index (ML l) (l_size l) r
  | NRS s r => push a index (MS s) 1 r
  | NRZ r => Ret (Acc (a_size a) (a_bits a) (a_values a) (a_ul a) (a_ur a) (rd (a_red a) r))
  end.

(** [unchanged = false]. *)
Definition set_ul (a : acc K V R) : acc K V R :=
  Acc (a_size a) (a_bits a) (a_values a) false (a_ur a) (a_red a).
Definition set_ur (a : acc K V R) : acc K V R :=
  Acc (a_size a) (a_bits a) (a_values a) (a_ul a) false (a_red a).

(** [for index in range]. *)
Fixpoint loop (step : acc K V R -> N -> outcome (acc K V R)) (l : list N) (a : acc K V R) : outcome (acc K V R) :=
  match l with
  | [] => Ret a
  | i :: l' => let* a' := step a i in loop step l' a'
  end.

(** cnode.rs:139-149, :434-452: the two halves of MiddleIndex.  [join!] runs
    both futures; they share no mutable state, so the model runs one after the
    other. *)
Definition halves (step : acc K V R -> N -> outcome (acc K V R)) : outcome (acc K V R) :=
  let half := max_ones fw / 2 in
  let* l := loop step (range 0 half) acc0 in
  let* r := loop step (range half (max_ones fw)) acc0 in
  let* bits := unwrap_ok (bit_merge (a_bits l) (a_bits r)) in
  Ret (Acc (a_size l + a_size r) bits (a_values l ++ a_values r) (a_ul l && a_ul r) (a_ur l && a_ur r)
           (rd (a_red l) (a_red r))).

(** cnode.rs:136-153, :432-455. *)
Definition run_loop (st : strategy) (step : acc K V R -> N -> outcome (acc K V R)) : outcome (acc K V R) :=
  match st with
  | MiddleIndex => halves step
  | Sequential => loop step (range 0 (max_ones fw)) acc0
  end.

(** cnode.rs:159-166 and every other block like it: build the new node. *)
Definition finish (a : acc K V R) : outcome (nres K V R) :=
  match a_values a with
  | [] => Ret (NRZ (a_red a))
  | [MC c] =>
      let* b := unwrap_ok (new_bia (a_bits a) [MC c] (a_size a)) in
      Ret (NRC b (a_red a))
  | [ML l] => Ret (NRL l (a_red a))
  | [MS s] => Ret (NRS s (a_red a))
  | values =>
      let* b := unwrap_ok (new_bia (a_bits a) values (a_size a)) in
      Ret (NRC b (a_red a))
  end.

End Loop.
