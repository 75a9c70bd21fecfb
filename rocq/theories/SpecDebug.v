(** What to expect of [Debug], and of arrays: words of the statements of C63 and C64. *)
From Coq Require Import NArith List Bool String.
From Verif Require Import Base Words Bia Debug.
Import ListNotations.
Open Scope string_scope.

(** The calls of the client's [fmt] for the entries [l]: key, value, key, value .. *)
Definition row {K V : Type} (dk : K -> fmt) (dv : V -> fmt) (l : list (K * V)) : list fmt :=
  flat_map (fun e => [dk (fst e); dv (snd e)]) l.

(** Text before, between and after calls, until one of them does not end well. *)
Fixpoint weave (gaps : list string) (calls : list fmt) : fmt :=
  match gaps, calls with
  | g :: gs, (s, FOk) :: cs => let r := weave gs cs in (g ++ s ++ fst r, snd r)
  | g :: _, (s, e) :: _ => (g ++ s, e)
  | g :: _, [] => (g, FOk)
  | [], _ => ("", FOk)
  end.

(** The first call that does not end well decides. *)
Fixpoint first_end (calls : list fmt) : fend :=
  match calls with
  | [] => FOk
  | (_, FOk) :: r => first_end r
  | (_, e) :: _ => e
  end.

(** A reader who finds [sep] after the text of [x] knows [x]. *)
Definition parted {A : Type} (sep : string) (show : A -> string) : Prop :=
  forall x y s t, show x ++ sep ++ s = show y ++ sep ++ t -> x = y.

(** Two answers of an array agree. *)
Definition agree {A : Type} (eqa : A -> A -> bool) (a b : result A BitError) : Prop :=
  match a, b with
  | Ok x, Ok y => eqa x y = true
  | Err _, Err _ => True
  | _, _ => False
  end.
