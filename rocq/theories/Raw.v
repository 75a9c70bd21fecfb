(** How a sparse array is built (src/bit_indexed_array.rs:11-27, :144-399): the
    loop that fills uninitialised memory slot by slot, from a source of values
    that may be used up.  Bia.v has the same functions on finished lists. *)
From Coq Require Import NArith List Bool.
From Verif Require Import Base Words Bia Node.
Import ListNotations.
Open Scope N_scope.

(** [RUndef]: undefined behaviour.  Either a slot that was never written is used
    as a value, or the loop is left by a panic, which drops the array with its
    unwritten slots. *)
Inductive raw (A : Type) : Type :=
| RRet (a : A)
| RPanic
| RUndef.
Arguments RRet {A} a.
Arguments RPanic {A}.
Arguments RUndef {A}.

Section Raw.
Context {A : Type}.

(** bit_indexed_array.rs:151-153, :174-178, :203-207, :232-235: the sources.
    [existing] is the array read from, given by its values. *)
Inductive vals : Type :=
| VVec (values : list A)
| VInsert (existing : list A) (index : N) (value : option A)
| VUpdate (existing : list A) (index : N) (value : option A)
| VRemove (existing : list A) (index : N).

(** bit_indexed_array.rs:164-166, :189-191, :218-220, :246-248; [None]: the
    subtraction underflows. *)
Definition v_len (v : vals) : option N :=
  match v with
  | VVec l => Some (lenN l)
  | VInsert l _ _ => Some (lenN l + 1)
  | VUpdate l _ _ => Some (lenN l)
  | VRemove l _ => if lenN l =? 0 then None else Some (lenN l - 1)
  end.

(** bit_indexed_array.rs:169-171, :194-200, :223-229, :251-256, with :89-96; the
    value and the source afterwards.  [None]: an [unwrap] fails. *)
Definition v_at (v : vals) (i : N) : option (A * vals) :=
  match v with
  | VVec l => match nthN l i with Some a => Some (a, v) | None => None end
  | VInsert l index value =>
      match i ?= index with
      | Lt => match nthN l i with Some a => Some (a, v) | None => None end
      | Eq => match value with Some a => Some (a, VInsert l index None) | None => None end
      | Gt => match nthN l (i - 1) with Some a => Some (a, v) | None => None end
      end
  | VUpdate l index value =>
      match i ?= index with
      | Eq => match value with Some a => Some (a, VUpdate l index None) | None => None end
      | _ => match nthN l i with Some a => Some (a, v) | None => None end
      end
  | VRemove l index =>
      match i ?= index with
      | Lt => match nthN l i with Some a => Some (a, v) | None => None end
      | _ => match nthN l (i + 1) with Some a => Some (a, v) | None => None end
      end
  end.

(** An array under construction: [None] is a slot not yet written.  The write is
    [ptr::write], which drops nothing; [None] as a result: out of bounds. *)
Definition write (building : list (option A)) (i : N) (a : A) : option (list (option A)) :=
  if i <? lenN building
  then Some (firstn (N.to_nat i) building ++ Some a :: skipn (S (N.to_nat i)) building)
  else None.

(** bit_indexed_array.rs:20-22. *)
Fixpoint fill (is : list N) (v : vals) (building : list (option A)) : option (list (option A)) :=
  match is with
  | [] => Some building
  | i :: is =>
      match v_at v i with
      | Some (a, v) =>
          match write building i a with
          | Some building => fill is v building
          | None => None
          end
      | None => None
      end
  end.

(** Using the array as an initialised one. *)
Fixpoint written (building : list (option A)) : option (list A) :=
  match building with
  | [] => Some []
  | Some a :: b => match written b with Some l => Some (a :: l) | None => None end
  | None :: _ => None
  end.

(** bit_indexed_array.rs:12-26, [BitIndexedArrayImpl::<SIZE>::new]. *)
Definition new_impl (size : N) (bits : N) (v : vals) (extra : N) : raw (result (bia A) unit) :=
  match v_len v with
  | None => RPanic
  | Some len =>
      if negb (count_ones bits =? size) || negb (len =? size) then RRet (Err tt)
      else
        match fill (range 0 size) v (repeat None (N.to_nat size)) with
        | None => RUndef
        | Some building =>
            match written building with
            | Some values => RRet (Ok (BIA bits values extra))
            | None => RUndef
            end
        end
  end.

(** bit_indexed_array.rs:263-399: one arm for each size up to 128. *)
Definition new_raw (bits : N) (v : vals) (extra : N) : raw (result (bia A) BitError) :=
  match v_len v with
  | None => RPanic
  | Some len =>
      if negb (count_ones bits =? len) then RRet (Err CountNotEqualToOne)
      else if len <=? 128 then
        match new_impl len bits v extra with
        | RRet (Ok b) => RRet (Ok b)
        | RRet (Err _) => RPanic   (* unwrap *)
        | RPanic => RPanic
        | RUndef => RUndef
        end
      else RRet (Err BRange)
  end.

(** bit_indexed_array.rs:98-102. *)
Definition raw_inserted (b : bia A) (bit : N) (a : A) (extra : N) : raw (result (bia A) BitError) :=
  match bit_insert (bbits b) bit with
  | Err e => RRet (Err e)
  | Ok bits =>
      match bit_index bits bit with
      | Err e => RRet (Err e)
      | Ok index => new_raw bits (VInsert (bvalues b) index (Some a)) extra
      end
  end.

(** bit_indexed_array.rs:108-111. *)
Definition raw_updated (b : bia A) (bit : N) (a : A) (extra : N) : raw (result (bia A) BitError) :=
  match bit_index (bbits b) bit with
  | Err e => RRet (Err e)
  | Ok index => new_raw (bbits b) (VUpdate (bvalues b) index (Some a)) extra
  end.

(** bit_indexed_array.rs:117-121. *)
Definition raw_removed (b : bia A) (bit : N) (extra : N) : raw (result (bia A) BitError) :=
  match bit_remove (bbits b) bit with
  | Err e => RRet (Err e)
  | Ok bits =>
      match bit_index (bbits b) bit with
      | Err e => RRet (Err e)
      | Ok index => new_raw bits (VRemove (bvalues b) index) extra
      end
  end.

(** The arrays there are: the fields are private (bit_indexed_array.rs:5-9) and
    only [default] (:259-261, :417-425) and [new] make one; a clone (:127-133,
    :401-409) is the same array.  [w] is the width of the words. *)
Inductive made (w : width) : bia A -> Prop :=
| made_default : made w bdefault
| made_new bits l extra b : bits < 2 ^ max_ones w -> new_raw bits (VVec l) extra = RRet (Ok b) -> made w b
| made_inserted b bit a extra b' : made w b -> bit < 2 ^ max_ones w ->
    raw_inserted b bit a extra = RRet (Ok b') -> made w b'
| made_updated b bit a extra b' : made w b -> bit < 2 ^ max_ones w ->
    raw_updated b bit a extra = RRet (Ok b') -> made w b'
| made_removed b bit extra b' : made w b -> bit < 2 ^ max_ones w ->
    raw_removed b bit extra = RRet (Ok b') -> made w b'.

End Raw.
Arguments vals : clear implicits.

(** The arrays of the branches of a map (cnode.rs:8-11). *)
Inductive array_in {K V : Type} : mnode K V -> bia (mnode K V) -> Prop :=
| array_here b : array_in (MC b) b
| array_below b c b' : In c (bvalues b) -> array_in c b' -> array_in (MC b) b'.
