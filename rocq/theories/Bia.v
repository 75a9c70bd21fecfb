(** Sparse arrays indexed by the set bits of a word (src/bit_indexed_array.rs). *)
From Coq Require Import NArith List Bool.
From Verif Require Import Base Words.
Import ListNotations.
Open Scope N_scope.

(** bit_indexed_array.rs:5-9, [BitIndexedArrayImpl]; the const SIZE is the
    length of [bvalues], the extra field is a usize (cnode.rs:10). *)
Record bia (A : Type) : Type := BIA { bbits : N; bvalues : list A; bextra : N }.
Arguments BIA {A} bbits bvalues bextra.
Arguments bbits {A} b.
Arguments bvalues {A} b.
Arguments bextra {A} b.

Definition lenN {A} (l : list A) : N := N.of_nat (length l).

(** Slice element [values[i]]. *)
Definition nthN {A} (l : list A) (i : N) : option A := nth_error l (N.to_nat i).

(** bit_indexed_array.rs:75-83, [at]. *)
Definition bat {A} (b : bia A) (bit : N) : result A BitError :=
  match bit_index (bbits b) bit with
  | Err e => Err e
  | Ok index =>
      match nthN (bvalues b) index with   (* index < SIZE *)
      | Some v => Ok v
      | None => Err BRange
      end
  end.

(** bit_indexed_array.rs:85-87, [at_bit_index]; the slice access panics when
    out of bounds. *)
Definition bat_bit_index {A} (w : width) (b : bia A) (index : N) : outcome (result A BitError) :=
  match nth_bit w index with
  | Err e => Ret (Err e)
  | Ok bit =>
      match bit_index (bbits b) bit with
      | Err e => Ret (Err e)
      | Ok i => let* v := unwrap (nthN (bvalues b) i) in Ret (Ok v)
      end
  end.

(** bit_indexed_array.rs:263-399, [new_bit_indexed_array]: SIZE up to 128.
    The element copy loop (12-26) is modelled as taking the list itself. *)
Definition new_bia {A} (bits : N) (values : list A) (extra : N) : result (bia A) BitError :=
  if negb (count_ones bits =? lenN values) then Err CountNotEqualToOne
  else if lenN values <=? 128 then Ok (BIA bits values extra)
  else Err BRange.

(** bit_indexed_array.rs:174-201, [BitIndexedArrayInsert]: the values with a
    new one at [index]. *)
Definition values_insert {A} (l : list A) (index : N) (v : A) : list A :=
  firstn (N.to_nat index) l ++ v :: skipn (N.to_nat index) l.

(** bit_indexed_array.rs:203-230, [BitIndexedArrayUpdate]. *)
Definition values_update {A} (l : list A) (index : N) (v : A) : list A :=
  firstn (N.to_nat index) l ++ v :: skipn (S (N.to_nat index)) l.

(** bit_indexed_array.rs:232-257, [BitIndexedArrayRemove]. *)
Definition values_remove {A} (l : list A) (index : N) : list A :=
  firstn (N.to_nat index) l ++ skipn (S (N.to_nat index)) l.

(** bit_indexed_array.rs:98-102, [inserted]. *)
Definition binserted {A} (b : bia A) (bit : N) (v : A) (extra : N) : result (bia A) BitError :=
  match bit_insert (bbits b) bit with
  | Err e => Err e
  | Ok bits =>
      match bit_index bits bit with
      | Err e => Err e
      | Ok index => new_bia bits (values_insert (bvalues b) index v) extra
      end
  end.

(** bit_indexed_array.rs:108-111, [updated]. *)
Definition bupdated {A} (b : bia A) (bit : N) (v : A) (extra : N) : result (bia A) BitError :=
  match bit_index (bbits b) bit with
  | Err e => Err e
  | Ok index => new_bia (bbits b) (values_update (bvalues b) index v) extra
  end.

(** bit_indexed_array.rs:117-121, [removed]. *)
Definition bremoved {A} (b : bia A) (bit : N) (extra : N) : result (bia A) BitError :=
  match bit_remove (bbits b) bit with
  | Err e => Err e
  | Ok bits =>
      match bit_index (bbits b) bit with
      | Err e => Err e
      | Ok index => new_bia bits (values_remove (bvalues b) index) extra
      end
  end.

(** bit_indexed_array.rs:259-261, [default_bit_indexed_array]. *)
Definition bdefault {A} : bia A := BIA 0 [] 0.

(** The indices visited by [for index in a..b]. *)
Definition range (a b : N) : list N :=
  map N.of_nat (seq (N.to_nat a) (N.to_nat (b - a))).
