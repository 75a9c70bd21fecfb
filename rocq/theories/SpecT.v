(** Independent specification of transform and transmute: what happens to one
    entry.  Nothing here mentions tries. *)
From Coq Require Import NArith List Bool.
From Verif Require Import Base Trans.
Import ListNotations.

(** What is left of an entry after its transformation. *)
Definition t_entry {K V R} (o : vres V R) (e : K * V) : list (K * V) :=
  match o with
  | VUnchanged _ => [e]
  | VTransformed v _ => [(fst e, v)]
  | VDropped _ => []
  end.
Definition t_red {V R} (o : vres V R) : R :=
  match o with VUnchanged r | VTransformed _ r | VDropped r => r end.
Definition t_unchanged {V R} (o : vres V R) : bool :=
  match o with VUnchanged _ => true | _ => false end.

(** What an entry is transmuted into. *)
Definition m_entry {S X R} (o : kres S X R) : list (S * X) :=
  match o with
  | KTransmuted k v _ => [(k, v)]
  | KDropped _ => []
  end.
Definition m_red {S X R} (o : kres S X R) : R :=
  match o with KTransmuted _ _ r | KDropped r => r end.

(** The contract of transmutation on the entries [l]: a new key hashes and
    compares like the key it comes from. *)
Definition m_keeps {E : Env} {K V S X R} {KK : Key K} {KS : Key S} (op : K * V -> kres S X R) (l : list (K * V)) : Prop :=
  forall e k v r, In e l -> op e = KTransmuted k v r -> cls k = cls (fst e).
