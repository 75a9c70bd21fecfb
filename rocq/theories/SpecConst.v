(** How C66 compares a run with constants in the place of closures to a run with closures
    that answer those constants; nothing here looks into the operations. *)
From Coq Require Import NArith List Bool Permutation.
From Verif Require Import Base Words Flag Bia Node Api Trans Eff EffApi Ask AskT SpecAskT AskJ SpecAskJ.
Import ListNotations.
Open Scope N_scope.

(** The same outcome, what is returned up to [P]. *)
Definition orel {X Y} (P : X -> Y -> Prop) (o : outcome X) (o1 : outcome Y) : Prop :=
  match o, o1 with Ret x, Ret y => P x y | Panic, Panic => True | Diverge, Diverge => True | _, _ => False end.

Section Runs.
Context {Q : Type} {A : Q -> Type}.
(** [keep]: calls that both runs make, in the same order and with the same answers.
    [soft]: calls that combine reductions, of which there may be more in the second run.
    [fair]: events of the second run. *)
Context (keep soft : Q -> bool) (fair : event (A := A) -> Prop).

Definition calls_kept (tr : list (event (A := A))) : list event := filter (fun e => keep (asked e)) tr.
Definition same (tr tr1 : list (event (A := A))) : Prop :=
  calls_kept tr1 = calls_kept tr /\
  Forall (fun e => keep (asked e) || soft (asked e) = true) tr /\
  Forall fair tr1 /\
  ((exists q, In (broke q) tr1) -> exists q, In (broke q) tr) /\
  (length tr <= length tr1)%nat.
End Runs.

(** The answer [o] is the constant's, or the closure was called and gave it. *)
Definition tw_from {V R} (w : tway R) (o : vres V R) (call : Prop) : Prop :=
  match w with TwClosure => call | TwUnchanged r => o = VUnchanged r | TwRemoved r => o = VDropped r end.
Definition mw_from {S X R} (w : mway R) (o : kres S X R) (call : Prop) : Prop :=
  match w with MwClosure => call | MwRemoved r => o = KDropped r end.
Definition tw_closure {R} (w : tway R) : bool := match w with TwClosure => true | _ => false end.
Definition mw_closure {R} (w : mway R) : bool := match w with MwClosure => true | _ => false end.
(** A closure that answers like the constant and never panics. *)
Definition tw_fair {V R} (w : tway R) (a : option (vres V R)) : Prop :=
  match a with Some o => tw_from w o True | None => w = TwClosure end.
Definition mw_fair {S X R} (w : mway R) (a : option (kres S X R)) : Prop :=
  match a with Some o => mw_from w o True | None => w = MwClosure end.

Section Calls.
Context {E : Env} {KL VL KR VR K V TB TL TR R : Type}.
Notation A := (jreply KL VL KR VR K V TB TL TR R).

(** Which of the three operations are closures. *)
Definition jkeep (bb bl br : bool) (q : jcalls KL VL KR VR K V R) : bool :=
  match q with
  | JBoth _ _ => bb
  | JLeft _ => bl
  | JRight _ => br
  | JReduce _ _ | JDefault => false
  | _ => true
  end.
Definition jsoft (q : jcalls KL VL KR VR K V R) : bool := match q with JReduce _ _ | JDefault => true | _ => false end.
Definition jfair (sb : option TB -> Prop) (sl : option TL -> Prop) (sr : option TR -> Prop) (e : event (A := A)) : Prop :=
  match e with
  | existT _ q a =>
      match q return option (A q) -> Prop with
      | JBoth _ _ => sb
      | JLeft _ => sl
      | JRight _ => sr
      | _ => fun _ => True
      end a
  end.

(** The entries of an item, and whether its operation is a closure. *)
Definition item_told (i : jitem KL VL KR VR TB TL TR) : list ((KL * VL) + (KR * VR)) :=
  match i with IBoth x y _ => [inl x; inr y] | ILeft x _ => [inl x] | IRight y _ => [inr y] end.
Definition item_called (bb bl br : bool) (i : jitem KL VL KR VR TB TL TR) : bool :=
  match i with IBoth _ _ _ => bb | ILeft _ _ => bl | IRight _ _ => br end.
(** Two entries were taken together because one was said to equal the other. *)
Definition item_from (cb : TB -> Prop -> Prop) (cl : TL -> Prop -> Prop) (cr : TR -> Prop -> Prop) (tr : list (event (A := A))) (i : jitem KL VL KR VR TB TL TR) : Prop :=
  match i with
  | IBoth x y o => cb o (In (answer (A := A) (JBoth x y) o) tr) /\ said_equal tr (fst x) (fst y)
  | ILeft x o => cl o (In (answer (A := A) (JLeft x) o) tr)
  | IRight y o => cr o (In (answer (A := A) (JRight y) o) tr)
  end.
End Calls.

(** Results that differ in the reduction only. *)
Definition same_map {T R O} (x y : T * R * O) : Prop := fst (fst x) = fst (fst y) /\ snd x = snd y.
Definition same_made {T R} (x y : T * R) : Prop := fst x = fst y.

Section Becomes.
Context {E : Env} {K V L W S X R : Type}.
Definition tm_goes (wb wl : tway R) (wr : mway R) (tr : list (event (A := jreply K V L W K V (vres V R) (vres V R) (kres K V R) R)))
  (i : jitem K V L W (vres V R) (vres V R) (kres K V R)) (out : list (K * V)) : Prop :=
  item_from (tw_from wb) (tw_from wl) (mw_from wr) tr i /\
  match i with IBoth x _ o | ILeft x o => jbecomes tr x o out | IRight _ o => out = jkout o end.
Definition mt_goes (wb : tway R) (wl : mway R) (wr : tway R) (tr : list (event (A := jreply K V L W L W (vres W R) (kres L W R) (vres W R) R)))
  (i : jitem K V L W (vres W R) (kres L W R) (vres W R)) (out : list (L * W)) : Prop :=
  item_from (tw_from wb) (mw_from wl) (tw_from wr) tr i /\
  match i with IBoth _ y o | IRight y o => jbecomes tr y o out | ILeft _ o => out = jkout o end.
Definition mm_goes (wb wl wr : mway R) (tr : list (event (A := jreply K V L W Empty_set Empty_set (kres S X R) (kres S X R) (kres S X R) R)))
  (i : jitem K V L W (kres S X R) (kres S X R) (kres S X R)) (out : list (S * X)) : Prop :=
  item_from (mw_from wb) (mw_from wl) (mw_from wr) tr i /\ out = jkout (mm_out i).
End Becomes.
