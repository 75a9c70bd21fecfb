(** Histories of calls on a set. *)
From Coq Require Import NArith List Bool.
From Verif Require Import Base Words Flag Bia Node Api Spec SpecS Hist.
Import ListNotations.

Section SetHist.
Context {E : Env} {K : Type} {KK : Key K}.

(** One call on the trie; the current set is replaced by the returned one. *)
Definition sstep (s : tset K) (o : sop K) : outcome (tset K * sobs K) :=
  match o with
  | SInsert k replace =>
      let* r := set_insert (fun x => x) s k replace in
      match r with
      | Ok (s', k', prev) => Ret (s', WInserted k' prev)
      | Err k' => Ret (s, WRefused k')
      end
  | SRemove k =>
      let* r := set_remove s k in
      match r with
      | Ok (s', k') => Ret (s', WRemoved k')
      | Err _ => Ret (s, WNotFound)
      end
  | SFind k =>
      let* r := set_find s k in
      match r with
      | Ok k' => Ret (s, WFound k')
      | Err _ => Ret (s, WNotFound)
      end
  end.

Fixpoint srun (s : tset K) (os : list (sop K)) : outcome (tset K * list (sobs K)) :=
  match os with
  | [] => Ret (s, [])
  | o :: os' =>
      let* (s1, x) := sstep s o in
      let* (s2, xs) := srun s1 os' in
      Ret (s2, x :: xs)
  end.

(** A call on a map, and what its caller sees, without the values. *)
Definition forget {V} (o : op K V) : sop K :=
  match o with
  | OInsert k _ replace => SInsert k replace
  | ORemove k => SRemove k
  | OFind k => SFind k
  end.
Definition forget_obs {V} (x : obs K V) : sobs K :=
  match x with
  | VInserted e prev => WInserted (fst e) (option_map fst prev)
  | VRefused e => WRefused (fst e)
  | VRemoved e => WRemoved (fst e)
  | VFound e => WFound (fst e)
  | VNotFound => WNotFound
  end.
End SetHist.
