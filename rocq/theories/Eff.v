(** Closures that are not functions.

    The closures given to transform and its relatives are [Fn] values: they may
    read and write cells, count, print, answer differently each time, or panic
    (map.rs:115-265, transformations.rs:151-382: [Fn(..) -> ..] by reference).
    Trans.v models them as functions.  Here a call is an event instead: a
    program asks, and goes on with whatever it is answered. *)
From Coq Require Import NArith List Bool.
From Verif Require Import Base Words Flag Bia Node Trans.
Import ListNotations.
Open Scope N_scope.

(** Programs that call closures.  [Q] is what the closures are called with,
    [A q] what may be answered to [q]. *)
Inductive prog {Q : Type} (A : Q -> Type) (X : Type) : Type :=
| PRet (x : X)
| PPanic
| PDiverge
| PAsk (q : Q) (k : A q -> prog A X).
Arguments PRet {Q A X} x.
Arguments PPanic {Q A X}.
Arguments PDiverge {Q A X}.
Arguments PAsk {Q A X} q k.

Section Prog.
Context {Q : Type} {A : Q -> Type}.

(** [let x = p; k]: Rust evaluates in program order. *)
Fixpoint pbind {X Y} (p : prog A X) (k : X -> prog A Y) : prog A Y :=
  match p with
  | PRet x => k x
  | PPanic => PPanic
  | PDiverge => PDiverge
  | PAsk q k' => PAsk q (fun a => pbind (k' a) k)
  end.

(** Code that calls no closure. *)
Definition lift {X} (o : outcome X) : prog A X :=
  match o with Ret x => PRet x | Panic => PPanic | Diverge => PDiverge end.

(** Calls as they happen: what was asked, and the answer, or [None] when the
    closure panicked. *)
Definition event : Type := {q : Q & option (A q)}.
Definition asked (e : event) : Q := projT1 e.
Definition answer (q : Q) (a : A q) : event := existT _ q (Some a).
Definition broke (q : Q) : event := existT _ q None.

(** [exec p tr o]: [p] may make the calls [tr], answered as recorded, and end
    in [o].  Nothing is assumed of the answers.  A closure that panics unwinds
    the whole operation: no code of /repo catches a panic. *)
Fixpoint exec {X} (p : prog A X) (tr : list event) (o : outcome X) : Prop :=
  match p with
  | PRet x => tr = [] /\ o = Ret x
  | PPanic => tr = [] /\ o = Panic
  | PDiverge => tr = [] /\ o = Diverge
  | PAsk q k =>
      (exists a tr', tr = answer q a :: tr' /\ exec (k a) tr' o) \/
      (tr = [broke q] /\ o = Panic)
  end.

(** The same with closures that are functions. *)
Fixpoint run {X} (f : forall q, A q) (p : prog A X) : outcome X :=
  match p with
  | PRet x => Ret x
  | PPanic => Panic
  | PDiverge => Diverge
  | PAsk q k => run f (k (f q))
  end.

End Prog.

Declare Scope prog_scope.
Notation "'let+' x := e 'in' f" := (pbind e (fun x => f))
  (at level 200, x pattern, e at level 100, f at level 200, right associativity) : prog_scope.
Open Scope prog_scope.

(** * Operations that call closures *)
Section Ops.
Context {Q : Type} {A : Q -> Type}.

(** transformations.rs:151-159, [MapTransform]; compare Trans.v. *)
Inductive etransform (I V R : Type) : Type :=
| EGeneric (f : I -> prog A (vres V R))
| EUnchanged (r : R)
| ERemoved (r : R).
Arguments EGeneric {I V R} f.
Arguments EUnchanged {I V R} r.
Arguments ERemoved {I V R} r.

(** transformations.rs:161-190, [call], [call_transform_transmute] and
    [call_transmute_transform]. *)
Definition etcall {I V R} (op : etransform I V R) (i : I) : prog A (vres V R) :=
  match op with
  | EGeneric f => f i
  | EUnchanged r => PRet (VUnchanged r)
  | ERemoved r => PRet (VDropped r)
  end.

(** transformations.rs:192-217, [flip_transform_transmute] and
    [flip_transmute_transform]. *)
Definition etflip {I J V R} (op : etransform (I * J) V R) : etransform (J * I) V R :=
  match op with
  | EGeneric f => EGeneric (fun p => f (snd p, fst p))
  | EUnchanged r => EUnchanged r
  | ERemoved r => ERemoved r
  end.

(** transformations.rs:344-350, [MapTransmute]. *)
Inductive etransmute (I S X R : Type) : Type :=
| EMGeneric (f : I -> prog A (kres S X R))
| EMRemoved (r : R).
Arguments EMGeneric {I S X R} f.
Arguments EMRemoved {I S X R} r.

(** transformations.rs:352-369, [call] and [call_transmute]. *)
Definition emcall {I S X R} (op : etransmute I S X R) (i : I) : prog A (kres S X R) :=
  match op with
  | EMGeneric f => f i
  | EMRemoved r => PRet (KDropped r)
  end.

(** transformations.rs:371-382, [flip]. *)
Definition emflip {I J S X R} (op : etransmute (I * J) S X R) : etransmute (J * I) S X R :=
  match op with
  | EMGeneric f => EMGeneric (fun p => f (snd p, fst p))
  | EMRemoved r => EMRemoved r
  end.

(** transformations.rs:5-17, [MapJointTransform]. *)
Inductive ejoint (I V R : Type) : Type :=
| EJGeneric (f : I -> I -> prog A (bres V R)) (flipped : bool)
| EJUnchangedLR (r : R)
| EJUnchangedL (r : R)
| EJUnchangedR (r : R)
| EJRemoved (r : R).
Arguments EJGeneric {I V R} f flipped.
Arguments EJUnchangedLR {I V R} r.
Arguments EJUnchangedL {I V R} r.
Arguments EJUnchangedR {I V R} r.
Arguments EJRemoved {I V R} r.

(** transformations.rs:20-37, [call]. *)
Definition ejcall {I V R} (op : ejoint I V R) (a b : I) : prog A (bres V R) :=
  match op with
  | EJGeneric f flipped => if flipped then let+ o := f b a in PRet (bres_flip o) else f a b
  | EJUnchangedLR r => PRet (BUnchangedLR r)
  | EJUnchangedL r => PRet (BUnchangedL r)
  | EJUnchangedR r => PRet (BUnchangedR r)
  | EJRemoved r => PRet (BDropped r)
  end.

(** transformations.rs:39-49, [flip]. *)
Definition ejflip {I V R} (op : ejoint I V R) : ejoint I V R :=
  match op with
  | EJGeneric f flipped => EJGeneric f (negb flipped)
  | _ => op
  end.

End Ops.
Arguments etransform {Q} A I V R.
Arguments EGeneric {Q A I V R} f.
Arguments EUnchanged {Q A I V R} r.
Arguments ERemoved {Q A I V R} r.
Arguments etransmute {Q} A I S X R.
Arguments EMGeneric {Q A I S X R} f.
Arguments EMRemoved {Q A I S X R} r.
Arguments ejoint {Q} A I V R.
Arguments EJGeneric {Q A I V R} f flipped.
Arguments EJUnchangedLR {Q A I V R} r.
Arguments EJUnchangedL {Q A I V R} r.
Arguments EJUnchangedR {Q A I V R} r.
Arguments EJRemoved {Q A I V R} r.

(** * The loop of every CNode traversal; compare Trans.v *)
Section Loop.
Context {E : Env} {Q : Type} {A : Q -> Type} {K V R : Type}.
Context (rdef : R) (rd : R -> R -> R).

(** [for index in range]. *)
Fixpoint eloop (step : acc K V R -> N -> prog A (acc K V R)) (l : list N) (a : acc K V R) : prog A (acc K V R) :=
  match l with
  | [] => PRet a
  | i :: l' => let+ a' := step a i in eloop step l' a'
  end.

(** cnode.rs:139-149, :434-452: the two halves of MiddleIndex.  [join!] polls
    the left future first, and neither ever waits, so the left half makes all
    its calls before the right half.  On an executor that runs them at the same
    time the calls of the halves would interleave; the theorems speak of the
    calls as a multiset. *)
Definition ehalves (step : acc K V R -> N -> prog A (acc K V R)) : prog A (acc K V R) :=
  let half := max_ones fw / 2 in
  let+ l := eloop step (range 0 half) (acc0 rdef) in
  let+ r := eloop step (range half (max_ones fw)) (acc0 rdef) in
  lift
    (let* bits := unwrap_ok (bit_merge (a_bits l) (a_bits r)) in
     Ret (Acc (a_size l + a_size r) bits (a_values l ++ a_values r) (a_ul l && a_ul r) (a_ur l && a_ur r)
              (rd (a_red l) (a_red r)))).

(** cnode.rs:136-153, :432-455. *)
Definition erun_loop (st : strategy) (step : acc K V R -> N -> prog A (acc K V R)) : prog A (acc K V R) :=
  match st with
  | MiddleIndex => ehalves step
  | Sequential => eloop step (range 0 (max_ones fw)) (acc0 rdef)
  end.

End Loop.
