(** The set operations transform, transmute and the four joint operations
    (src/set.rs), and the two transfute operations of maps (src/map.rs): each
    converts its operations and calls the trie. *)
From Coq Require Import NArith List Bool.
From Verif Require Import Base Words Flag Bia Node Api Trans Transform Joint JointT.
Import ListNotations.

(** results.rs:112-118, [SetTransformResult]. *)
Inductive sres (R : Type) : Type :=
| SUnchanged (r : R)
| SDropped (r : R).
Arguments SUnchanged {R} r.
Arguments SDropped {R} r.

(** results.rs:121-132, [SetJointTransformResult]. *)
Inductive sbres (R : Type) : Type :=
| SBUnchangedLR (r : R)
| SBUnchangedL (r : R)
| SBUnchangedR (r : R)
| SBDropped (r : R).
Arguments SBUnchangedLR {R} r.
Arguments SBUnchangedL {R} r.
Arguments SBUnchangedR {R} r.
Arguments SBDropped {R} r.

(** results.rs:135-142, [SetJointTransformResult::flip]. *)
Definition sbres_flip {R} (b : sbres R) : sbres R :=
  match b with
  | SBUnchangedL r => SBUnchangedR r
  | SBUnchangedR r => SBUnchangedL r
  | _ => b
  end.

(** results.rs:145-152, [SetTransmuteResult]. *)
Inductive skres (S R : Type) : Type :=
| SKTransmuted (k : S) (r : R)
| SKDropped (r : R).
Arguments SKTransmuted {S R} k r.
Arguments SKDropped {S R} r.

(** transformations.rs:267-275, [SetTransform]; [A] is the argument tuple. *)
Inductive stransform_op (A R : Type) : Type :=
| STGeneric (f : A -> sres R)
| STUnchanged (r : R)
| STRemoved (r : R).
Arguments STGeneric {A R} f.
Arguments STUnchanged {A R} r.
Arguments STRemoved {A R} r.

(** transformations.rs:277-296, [call] and [call_transmute]. *)
Definition stcall {A R} (op : stransform_op A R) (a : A) : sres R :=
  match op with
  | STGeneric f => f a
  | STUnchanged r => SUnchanged r
  | STRemoved r => SDropped r
  end.

(** transformations.rs:298-310, [flip_transmute]. *)
Definition stflip {A B R} (op : stransform_op (A * B) R) : stransform_op (B * A) R :=
  match op with
  | STGeneric f => STGeneric (fun p => f (snd p, fst p))
  | STUnchanged r => STUnchanged r
  | STRemoved r => STRemoved r
  end.

(** transformations.rs:406-412, [SetTransmute]. *)
Inductive stransmute_op (A S R : Type) : Type :=
| SMGeneric (f : A -> skres S R)
| SMRemoved (r : R).
Arguments SMGeneric {A S R} f.
Arguments SMRemoved {A S R} r.

(** transformations.rs:414-431, [call] and [call_transmute]. *)
Definition smcall {A S R} (op : stransmute_op A S R) (a : A) : skres S R :=
  match op with
  | SMGeneric f => f a
  | SMRemoved r => SKDropped r
  end.

(** transformations.rs:433-444, [flip]. *)
Definition smflip {A B S R} (op : stransmute_op (A * B) S R) : stransmute_op (B * A) S R :=
  match op with
  | SMGeneric f => SMGeneric (fun p => f (snd p, fst p))
  | SMRemoved r => SMRemoved r
  end.

(** transformations.rs:78-90, [SetJointTransform]. *)
Inductive sjoint_op (A R : Type) : Type :=
| SJGeneric (f : A -> A -> sbres R) (flipped : bool)
| SJUnchangedLR (r : R)
| SJUnchangedL (r : R)
| SJUnchangedR (r : R)
| SJRemoved (r : R).
Arguments SJGeneric {A R} f flipped.
Arguments SJUnchangedLR {A R} r.
Arguments SJUnchangedL {A R} r.
Arguments SJUnchangedR {A R} r.
Arguments SJRemoved {A R} r.

(** transformations.rs:92-110, [call]. *)
Definition sjcall {A R} (op : sjoint_op A R) (a b : A) : sbres R :=
  match op with
  | SJGeneric f flipped => if flipped then sbres_flip (f b a) else f a b
  | SJUnchangedLR r => SBUnchangedLR r
  | SJUnchangedL r => SBUnchangedL r
  | SJUnchangedR r => SBUnchangedR r
  | SJRemoved r => SBDropped r
  end.

(** transformations.rs:112-122, [flip]. *)
Definition sjflip {A R} (op : sjoint_op A R) : sjoint_op A R :=
  match op with
  | SJGeneric f flipped => SJGeneric f (negb flipped)
  | _ => op
  end.

(** * Conversions *)

(** results.rs:165-172, [From<SetTransformResult>]; spelt out again at
    set.rs:121-124. *)
Definition vres_of {V R} (o : sres R) : vres V R :=
  match o with
  | SUnchanged r => VUnchanged r
  | SDropped r => VDropped r
  end.

(** results.rs:201-210, [From<SetJointTransformResult>]. *)
Definition bres_of {V R} (o : sbres R) : bres V R :=
  match o with
  | SBUnchangedLR r => BUnchangedLR r
  | SBUnchangedL r => BUnchangedL r
  | SBUnchangedR r => BUnchangedR r
  | SBDropped r => BDropped r
  end.

(** set.rs:144-147 and the other matches on [SetTransmuteResult] in set.rs. *)
Definition kres_of {S R} (o : skres S R) : kres S unit R :=
  match o with
  | SKTransmuted k r => KTransmuted k tt r
  | SKDropped r => KDropped r
  end.

(** set.rs:120-127, :172-181, :203-207, ...: the one-sided operations. *)
Definition transform_of {K R} (op : stransform_op K R) : transform_op (K * unit) unit R :=
  match op with
  | STGeneric f => TGeneric (fun e => vres_of (f (fst e)))
  | STUnchanged r => TUnchanged r
  | STRemoved r => TRemoved r
  end.

(** set.rs:143-149, :208-214, ... *)
Definition transmute_of {K S R} (op : stransmute_op K S R) : transmute_op (K * unit) S unit R :=
  match op with
  | SMGeneric f => MGeneric (fun e => kres_of (f (fst e)))
  | SMRemoved r => MRemoved r
  end.

(** set.rs:165-171. *)
Definition joint_of {K R} (op : sjoint_op K R) : joint_op (K * unit) unit R :=
  match op with
  | SJGeneric g flipped => JGeneric (fun e e' => bres_of (g (fst e) (fst e'))) flipped
  | SJUnchangedLR r => JUnchangedLR r
  | SJUnchangedL r => JUnchangedL r
  | SJUnchangedR r => JUnchangedR r
  | SJRemoved r => JRemoved r
  end.

(** set.rs:202 and :235: the operation on common elements is always passed as a
    closure. *)
Definition both_transform_of {K L R} (op : stransform_op (K * L) R) : transform_op ((K * unit) * (L * unit)) unit R :=
  TGeneric (fun p => vres_of (stcall op (fst (fst p), fst (snd p)))).

(** set.rs:273-276. *)
Definition both_transmute_of {K L S R} (op : stransmute_op (K * L) S R) : transmute_op ((K * unit) * (L * unit)) S unit R :=
  MGeneric (fun p => kres_of (smcall op (fst (fst p), fst (snd p)))).

(** * The operations *)
Section Sets.
Context {E : Env} {K R : Type} {KK : Key K}.
Context (rdef : R) (rd : R -> R -> R).

(** set.rs:112-129. *)
Definition set_transform (st : strategy) (op : stransform_op K R) (s : tset K) : outcome (tset K * R * origin) :=
  map_transform rdef rd st (transform_of op) s.

(** set.rs:132-151. *)
Definition set_transmute {S} (op : stransmute_op K S R) (s : tset K) : outcome (tset S * R) :=
  map_transmute rdef rd (transmute_of op) s.

(** set.rs:154-183. *)
Definition set_tt (st : strategy) (both : sjoint_op K R) (lop rop : stransform_op K R) (s right : tset K)
  : outcome (tset K * R * origin) :=
  map_tt rdef rd st (joint_of both) (transform_of lop) (transform_of rop) s right.

(** set.rs:186-216. *)
Definition set_tm {L} {KL : Key L} (st : strategy) (both : stransform_op (K * L) R) (lop : stransform_op K R) (rop : stransmute_op L K R)
  (s : tset K) (right : tset L) : outcome (tset K * R * origin) :=
  map_tm rdef rd st (both_transform_of both) (transform_of lop) (transmute_of rop) s right.

(** set.rs:219-249. *)
Definition set_mt {L} {KL : Key L} (st : strategy) (both : stransform_op (K * L) R) (lop : stransmute_op K L R) (rop : stransform_op L R)
  (s : tset K) (right : tset L) : outcome (tset L * R * origin) :=
  map_mt rdef rd st (both_transform_of both) (transmute_of lop) (transform_of rop) s right.

(** set.rs:252-292. *)
Definition set_mm {L S} {KL : Key L} {KS : Key S} (both : stransmute_op (K * L) S R) (lop : stransmute_op K S R) (rop : stransmute_op L S R)
  (s : tset K) (right : tset L) : outcome (tset S * R) :=
  map_mm rdef rd (both_transmute_of both) (transmute_of lop) (transmute_of rop) s right.

End Sets.

(** * Transfute *)
Section Transfute.
Context {E : Env} {K R : Type} {KK : Key K}.
Context (rdef : R) (rd : R -> R -> R).

(** map.rs:171-176 and :214-219: the closure keeps a clone of the key. *)
Definition transfute_of {V W} (op : stransmute_op (K * W) V R) : transmute_op (K * W) K V R :=
  match op with
  | SMGeneric g => MGeneric (fun e => match g e with
                                      | SKTransmuted v r => KTransmuted (fst e) v r
                                      | SKDropped r => KDropped r
                                      end)
  | SMRemoved r => MRemoved r
  end.

(** map.rs:159-179, [transform_with_transfuted]. *)
Definition map_tf {V W} (st : strategy) (both : transform_op ((K * V) * (K * W)) V R) (lop : transform_op (K * V) V R)
  (rop : stransmute_op (K * W) V R) (m : trie K V) (right : trie K W) : outcome (trie K V * R * origin) :=
  map_tm rdef rd st both lop (transfute_of rop) m right.

(** map.rs:202-222, [transfute_with_transformed]. *)
Definition map_ft {V W} (st : strategy) (both : transform_op ((K * V) * (K * W)) W R) (lop : stransmute_op (K * V) W R)
  (rop : transform_op (K * W) W R) (m : trie K V) (right : trie K W) : outcome (trie K W * R * origin) :=
  map_mt rdef rd st both (transfute_of lop) rop m right.

End Transfute.
