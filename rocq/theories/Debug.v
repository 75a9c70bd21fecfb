(** The [Debug] text of maps and sets, [format!("{:?}", map)]
    (src/map.rs, src/set.rs, src/hash_trie.rs, src/node/*.rs,
    src/bit_indexed_array.rs).  Only the plain form [{:?}] is modelled: [{:#?}] and
    width or precision in the format are not.  The text goes to a [String], whose
    [write_str] does not fail. *)
From Coq Require Import NArith List Bool String DecimalString.
From Verif Require Import Base Words Flag Bia Node Api.
Import ListNotations.
Open Scope N_scope.
Open Scope string_scope.

(** How a call of [fmt] ends: [Ok(())], [Err(fmt::Error)], or a panic. *)
Inductive fend : Set := FOk | FErr | FPanic.

(** What a call of [fmt] wrote, and how it ended.  The code of core that is
    used here calls one [fmt] after another and stops at the first that
    does not end with [Ok]. *)
Definition fmt : Type := string * fend.

Definition fseq (a b : fmt) : fmt :=
  match snd a with
  | FOk => (fst a ++ fst b, snd b)
  | e => (fst a, e)
  end.

(** [Formatter::write_str]. *)
Definition text (s : string) : fmt := (s, FOk).

Fixpoint fseqs (l : list fmt) : fmt :=
  match l with
  | [] => text ""
  | a :: r => fseq a (fseqs r)
  end.

(** [Debug] of the unsigned words [usize], [u8] .. [u128]: decimal. *)
Definition fmt_word (n : N) : fmt := text (NilEmpty.string_of_uint (N.to_uint n)).

(** core::fmt::builders: [debug_struct(name).field(..)...finish()], which is what
    [derive(Debug)] makes of a struct with named fields. *)
Fixpoint more_fields (l : list (string * fmt)) : fmt :=
  match l with
  | [] => text " }"
  | (n, a) :: r => fseq (text (", " ++ n ++ ": ")) (fseq a (more_fields r))
  end.
Definition fmt_struct (name : string) (l : list (string * fmt)) : fmt :=
  match l with
  | [] => text name
  | (n, a) :: r => fseq (text (name ++ " { " ++ n ++ ": ")) (fseq a (more_fields r))
  end.

(** [debug_tuple(name).field(..).finish()], for an enum variant with one field. *)
Definition fmt_variant (name : string) (a : fmt) : fmt :=
  fseq (text (name ++ "(")) (fseq a (text ")")).

(** [debug_list().entries(..).finish()], the [Debug] of slices. *)
Fixpoint more_entries (l : list fmt) : fmt :=
  match l with
  | [] => text "]"
  | a :: r => fseq (text ", ") (fseq a (more_entries r))
  end.
Definition fmt_list (l : list fmt) : fmt :=
  match l with
  | [] => text "[]"
  | a :: r => fseq (text "[") (fseq a (more_entries r))
  end.

(** bit_indexed_array.rs:493-497, [Debug for dyn BitIndexedArray]. *)
Definition fmt_array (bits : N) (values : list fmt) (extra : N) : fmt :=
  fseqs [text "BitIndexedArray { bits: "; fmt_word bits; text ", values: "; fmt_list values;
         text ", extra: "; fmt_word extra; text " }"].

Section Debug.
Context {K V : Type}.
(** The client's [Debug for K] and [Debug for V]. *)
Variable dk : K -> fmt.
Variable dv : V -> fmt.

(** snode.rs:5-9, derived. *)
Definition fmt_snode (s : snode K V) : fmt :=
  fmt_struct "SNode" [("key", dk (s_key s)); ("value", dv (s_value s))].

(** lnode.rs:29-35, derived; its field [next] is lnode.rs:5-9, derived.  [Arc] adds
    nothing to the text. *)
Fixpoint fmt_lnode (l : lnode K V) : fmt :=
  match l with
  | LNL k v n z =>
      fmt_struct "LNode" [("key", dk k); ("value", dv v);
                          ("next", fmt_variant "L" (fmt_lnode n)); ("size", fmt_word z)]
  | LNS k v s z =>
      fmt_struct "LNode" [("key", dk k); ("value", dv v);
                          ("next", fmt_variant "S" (fmt_snode s)); ("size", fmt_word z)]
  end.

(** mnode.rs:5-10, derived; the first case has cnode.rs:8-11, derived. *)
Fixpoint fmt_mnode (n : mnode K V) : fmt :=
  match n with
  | MC (BIA bits values extra) =>
      fmt_variant "C" (fmt_struct "CNode" [("nodes", fmt_array bits (map fmt_mnode values) extra)])
  | ML l => fmt_variant "L" (fmt_lnode l)
  | MS s => fmt_variant "S" (fmt_snode s)
  end.

(** hash_trie.rs:5-8, derived. *)
Definition fmt_trie (m : mnode K V) : fmt := fmt_struct "HashTrie" [("root", fmt_mnode m)].

(** map.rs:68-72, derived. *)
Definition map_debug (m : mnode K V) : fmt := fmt_struct "HashTrieMap" [("set", fmt_trie m)].

End Debug.

(** set.rs:66-70, derived; the values of a set are (), whose [Debug] is "()". *)
Definition set_debug {K : Type} (dk : K -> fmt) (s : mnode K unit) : fmt :=
  fmt_struct "HashTrieSet" [("set", fmt_trie dk (fun _ => text "()") s)].

(** * Equality, copies and access by position of arrays (crate-private). *)
Section Array.
Context {A : Type}.

(** bit_indexed_array.rs:89-96, [at_index]. *)
Definition bat_index (b : bia A) (index : N) : result A BitError :=
  match nthN (bvalues b) index with
  | Some v => Ok v
  | None => Err BRange
  end.

(** bit_indexed_array.rs:104-106, :113-115, :123-125: [B::nth_bit(index)?]. *)
Definition binserted_bit_index (w : width) (b : bia A) (index : N) (v : A) (extra : N) : result (bia A) BitError :=
  match nth_bit w index with Err e => Err e | Ok bit => binserted b bit v extra end.
Definition bupdated_bit_index (w : width) (b : bia A) (index : N) (v : A) (extra : N) : result (bia A) BitError :=
  match nth_bit w index with Err e => Err e | Ok bit => bupdated b bit v extra end.
Definition bremoved_bit_index (w : width) (b : bia A) (index : N) (extra : N) : result (bia A) BitError :=
  match nth_bit w index with Err e => Err e | Ok bit => bremoved b bit extra end.

(** bit_indexed_array.rs:127-133, [clone_impl]; :401-415.  [cl] is the clone of the elements. *)
Definition bclone (cl : A -> A) (b : bia A) : bia A := BIA (bbits b) (map cl (bvalues b)) (bextra b).

(** bit_indexed_array.rs:135-137, [iter]; :451-458, :469-476. *)
Definition biter (b : bia A) : list A := bvalues b.

(** bit_indexed_array.rs:139-141, [iter_mut]; :460-467, :478-485: what the array is after a
    client has put [f x] for each [x] that comes by. *)
Definition biter_mut (f : A -> A) (b : bia A) : bia A := BIA (bbits b) (map f (bvalues b)) (bextra b).

Section Eq.
(** The [==] of the elements. *)
Variable eqa : A -> A -> bool.

(** bit_indexed_array.rs:436-440, the loop; the operands have the same SIZE, so the
    accesses [other.values[i]] are in bounds. *)
Fixpoint eq_loop (l r : list A) : outcome bool :=
  match l with
  | [] => Ret true
  | x :: l' =>
      match r with
      | [] => Panic
      | y :: r' => if negb (eqa x y) then Ret false else eq_loop l' r'
      end
  end.

(** bit_indexed_array.rs:431-443, [PartialEq for BitIndexedArrayImpl]: both of one SIZE. *)
Definition impl_eq (a b : bia A) : outcome bool :=
  if negb (bbits a =? bbits b)%N || negb (bextra a =? bextra b)%N then Ret false
  else eq_loop (bvalues a) (bvalues b).

(** [==] of slices. *)
Fixpoint slice_eq (l r : list A) : bool :=
  match l, r with
  | [], [] => true
  | x :: l', y :: r' => eqa x y && slice_eq l' r'
  | _, _ => false
  end.

(** bit_indexed_array.rs:445-449, [PartialEq for dyn BitIndexedArray]. *)
Definition dyn_eq (a b : bia A) : bool :=
  (bbits a =? bbits b)%N && slice_eq (bvalues a) (bvalues b) && (bextra a =? bextra b)%N.

End Eq.
End Array.
