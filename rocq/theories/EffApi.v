(** What a client passes: a closure or a constant, and what the calls are. *)
From Coq Require Import NArith List Bool.
From Verif Require Import Base Spec Trans Joint Eff EffP.
Import ListNotations.

Section Ways.
Context {Q : Type} {A : Q -> Type}.

(** Calling the client's closure. *)
Definition ask (q : Q) : prog A (A q) := PAsk q PRet.

(** transformations.rs:151-159, [MapTransform]: [Generic], [Unchanged], [Removed]. *)
Inductive tway (R : Type) : Type := TwClosure | TwUnchanged (r : R) | TwRemoved (r : R).
(** transformations.rs:344-350, [MapTransmute]. *)
Inductive mway (R : Type) : Type := MwClosure | MwRemoved (r : R).
(** transformations.rs:5-17, [MapJointTransform]. *)
Inductive jway (R : Type) : Type :=
| JwClosure | JwUnchangedLR (r : R) | JwUnchangedL (r : R) | JwUnchangedR (r : R) | JwRemoved (r : R).
Arguments TwClosure {R}.
Arguments TwUnchanged {R} r.
Arguments TwRemoved {R} r.
Arguments MwClosure {R}.
Arguments MwRemoved {R} r.
Arguments JwClosure {R}.
Arguments JwUnchangedLR {R} r.
Arguments JwUnchangedL {R} r.
Arguments JwUnchangedR {R} r.
Arguments JwRemoved {R} r.

(** The operation, [g] being how its closure is called. *)
Definition tw_op {I V R} (w : tway R) (g : I -> prog A (vres V R)) : etransform A I V R :=
  match w with TwClosure => EGeneric g | TwUnchanged r => EUnchanged r | TwRemoved r => ERemoved r end.
Definition mw_op {I S X R} (w : mway R) (g : I -> prog A (kres S X R)) : etransmute A I S X R :=
  match w with MwClosure => EMGeneric g | MwRemoved r => EMRemoved r end.
Definition jw_op {I V R} (w : jway R) (g : I -> I -> prog A (bres V R)) : ejoint A I V R :=
  match w with
  | JwClosure => EJGeneric g false
  | JwUnchangedLR r => EJUnchangedLR r
  | JwUnchangedL r => EJUnchangedL r
  | JwUnchangedR r => EJUnchangedR r
  | JwRemoved r => EJRemoved r
  end.

(** The operation with a function for the closure (Trans.v, Joint.v). *)
Definition tw_fun {I V R} (w : tway R) (g : I -> vres V R) : transform_op I V R :=
  match w with TwClosure => TGeneric g | TwUnchanged r => TUnchanged r | TwRemoved r => TRemoved r end.
Definition mw_fun {I S X R} (w : mway R) (g : I -> kres S X R) : transmute_op I S X R :=
  match w with MwClosure => MGeneric g | MwRemoved r => MRemoved r end.
Definition jw_fun {I V R} (w : jway R) (g : I -> I -> bres V R) : joint_op I V R :=
  match w with
  | JwClosure => JGeneric g false
  | JwUnchangedLR r => JUnchangedLR r
  | JwUnchangedL r => JUnchangedL r
  | JwUnchangedR r => JUnchangedR r
  | JwRemoved r => JRemoved r
  end.

(** The calls one item costs: one if there is a closure, none if not. *)
Definition tw_calls {R} (w : tway R) (q : Q) : list Q := match w with TwClosure => [q] | _ => [] end.
Definition mw_calls {R} (w : mway R) (q : Q) : list Q := match w with MwClosure => [q] | _ => [] end.
Definition jw_calls {R} (w : jway R) (q : Q) : list Q := match w with JwClosure => [q] | _ => [] end.

(** The trace [tr] of a run that ended in [o] makes the calls [l]: each of them
    at most once, no others, and all of them if the run returned. *)
Definition makes {X} (l : list Q) (tr : list (event (A := A))) (o : outcome X) : Prop :=
  exists rest, Permutation.Permutation (calls tr ++ rest) l /\ forall x, o = Ret x -> rest = [].

(** No closure panicked. *)
Definition unbroken (tr : list (event (A := A))) : Prop := forall q, ~ In (broke q) tr.

End Ways.
Arguments TwClosure {R}.
Arguments TwUnchanged {R} r.
Arguments TwRemoved {R} r.
Arguments MwClosure {R}.
Arguments MwRemoved {R} r.
Arguments JwClosure {R}.
Arguments JwUnchangedLR {R} r.
Arguments JwUnchangedL {R} r.
Arguments JwUnchangedR {R} r.
Arguments JwRemoved {R} r.

(** The calls of a joint operation (map.rs:144-265): [both_op] with an entry of
    either map, [left_op] with one of the left, [right_op] with one of the
    right.  The answers differ in type. *)
Inductive jcalls (I J : Type) : Type := AskBoth (e : I) (e' : J) | AskLeft (e : I) | AskRight (e' : J).
Arguments AskBoth {I J} e e'.
Arguments AskLeft {I J} e.
Arguments AskRight {I J} e'.

Definition jans {I J} (TB TL TR : Type) (q : jcalls I J) : Type :=
  match q with AskBoth _ _ => TB | AskLeft _ => TL | AskRight _ => TR end.

Section JAsk.
Context {I J TB TL TR : Type}.
Definition ask_both (p : I * J) : prog (jans TB TL TR) TB := ask (A := jans TB TL TR) (AskBoth (fst p) (snd p)).
Definition ask_left (e : I) : prog (jans TB TL TR) TL := ask (A := jans TB TL TR) (AskLeft (J := J) e).
Definition ask_right (e' : J) : prog (jans TB TL TR) TR := ask (A := jans TB TL TR) (AskRight (I := I) e').

(** The three functions of a way of answering. *)
Definition fun_both (f : forall q : jcalls I J, jans TB TL TR q) (p : I * J) : TB := f (AskBoth (fst p) (snd p)).
Definition fun_left (f : forall q : jcalls I J, jans TB TL TR q) (e : I) : TL := f (AskLeft e).
Definition fun_right (f : forall q : jcalls I J, jans TB TL TR q) (e' : J) : TR := f (AskRight e').
End JAsk.

(** Entries in the order of [l] but for runs of equal hashes, which are reversed. *)
Section Order.
Context {E : Env} {K V : Type} {KK : Key K}.

(** [acc] is the run being read, backwards. *)
Fixpoint runs_back (acc l : list (K * V)) : list (K * V) :=
  match l with
  | [] => acc
  | e :: l =>
      match acc with
      | [] => runs_back [e] l
      | a :: _ => if N.eqb (hash (ecls a)) (hash (ecls e)) then runs_back (e :: acc) l else acc ++ runs_back [e] l
      end
  end.
Definition backwards : list (K * V) -> list (K * V) := runs_back [].
End Order.
