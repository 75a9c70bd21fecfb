(** How C65 counts the calls of a joint operation; nothing here looks into the operations. *)
From Coq Require Import NArith List Bool.
From Verif Require Import Base Node Api Eff Ask AskJ SpecAsk.
Import ListNotations.
Open Scope N_scope.

(** How many calls of a kind were made, answered or not. *)
Definition tally {Q : Type} {A : Q -> Type} (kind : Q -> bool) (tr : list (event (A := A))) : N :=
  N.of_nat (length (filter (fun e => kind (asked e)) tr)).

(** Comparisons of keys, in either direction. *)
Definition is_jeq {KL VL KR VR K V R} (q : jcalls KL VL KR VR K V R) : bool :=
  match q with JEq _ _ | JEq' _ _ => true | _ => false end.
(** Hashes of keys of either map. *)
Definition is_jhash {KL VL KR VR K V R} (q : jcalls KL VL KR VR K V R) : bool :=
  match q with JHash _ | JHash' _ => true | _ => false end.

(** However it ends and whatever is answered, code working on two maps compares at most
    each entry of one with as many entries of the other as its longest collision list has;
    it hashes for each entry of the smaller map at most once on every level and twice more. *)
Definition few {E : Env} {KL VL KR VR K V TB TL TR R Y} (m : trie KL VL) (right : trie KR VR) (p : prog (jreply KL VL KR VR K V TB TL TR R) Y) : Prop :=
  forall tr o, exec p tr o ->
  tally is_jeq tr <= map_size m * longest right /\ tally is_jeq tr <= map_size right * longest m /\
  tally is_jhash tr <= (2 + N.max (branches m) (branches right)) * N.max 1 (N.min (map_size m) (map_size right)).
