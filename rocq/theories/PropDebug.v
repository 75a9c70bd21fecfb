(** Properties C63 and C64: the [Debug] text of maps and sets; arrays as a whole. *)
From Coq Require Import DecimalString NArith List Bool Ascii String.
From Verif Require Import Base Words WordLaws Flag Bia Node Api Spec Hist Raw RawP Debug SpecDebug DebugP DebugInjP BiaEqP Ex.
Import ListNotations.
Open Scope N_scope.
Open Scope string_scope.
#[local] Existing Instance exE | 100.

(** * C63 *)

(** The text of a map shows exactly the entries [visit] shows, in that order, the key and then
    the value; the client's code is called for nothing else, and the text around is the map's
    own.  The first call that fails or panics ends it all, and what was written until
    then is there. *)
Theorem C63_entries : forall K V (m : trie K V), exists gaps, forall dk dv,
  List.length gaps = S (List.length (row dk dv (map_visit m))) /\
  map_debug dk dv m = weave gaps (row dk dv (map_visit m)).
Proof. exact @debug_entries. Qed.
Print Assumptions C63_entries.
Theorem C63_set_entries : forall K (s : trie K unit), exists gaps, List.length gaps = S (List.length (set_visit s)) /\
  forall dk, set_debug dk s = weave gaps (map dk (set_visit s)).
Proof. exact @set_debug_entries. Qed.
Print Assumptions C63_set_entries.
Theorem C63_end : forall K V dk dv (m : trie K V), snd (map_debug dk dv m) = first_end (row dk dv (map_visit m)).
Proof. exact @debug_end. Qed.
Print Assumptions C63_end.

(** The text tells everything: if keys and values can be told apart where they stand, maps with
    the same text are the same tree. *)
Theorem C63_tells : forall K V (sk : K -> string) (sv : V -> string),
  parted ", value: " sk -> parted " }" sv -> parted ", next: " sv -> forall m m' : trie K V,
  map_debug (fun k => text (sk k)) (fun v => text (sv v)) m = map_debug (fun k => text (sk k)) (fun v => text (sv v)) m' ->
  m = m'.
Proof. exact @debug_injective. Qed.
Print Assumptions C63_tells.
Theorem C63_set_tells : forall K (sk : K -> string) (s s' : trie K unit), parted ", value: " sk ->
  set_debug (fun k => text (sk k)) s = set_debug (fun k => text (sk k)) s' -> s = s'.
Proof. exact @set_debug_injective. Qed.
Print Assumptions C63_set_tells.

(** Integers can be told apart. *)
Definition show_word (n : N) : string := NilEmpty.string_of_uint (N.to_uint n).
Theorem C63_words : parted ", value: " show_word /\ parted " }" show_word /\ parted ", next: " show_word.
Proof. repeat split; (eapply parted_words; [reflexivity|reflexivity]). Qed.
Print Assumptions C63_words.

(** The text of the empty map, whatever the types. *)
Theorem C63_empty : forall K V (dk : K -> fmt) (dv : V -> fmt),
  map_debug dk dv map_new =
  text "HashTrieMap { set: HashTrie { root: C(CNode { nodes: BitIndexedArray { bits: 0, values: [], extra: 0 } }) } }".
Proof. reflexivity. Qed.
Print Assumptions C63_empty.

(** The text does not depend on the contents alone: a removal can leave branches that a map
    without the history does not have. *)
Theorem C63_contents_not_enough : exists (os os' : list (op key N)) m m' xs xs' dk dv,
  run map_new os = Ret (m, xs) /\ run map_new os' = Ret (m', xs') /\ map_visit m = map_visit m' /\
  map_debug dk dv m <> map_debug dk dv m'.
Proof.
  exists [OInsert (0, 0) 1 false; OInsert (128, 0) 2 false; ORemove (128, 0)], [OInsert (0, 0) 1 false].
  do 4 eexists. exists (fun k => text (show_word (fst k))), (fun v => text (show_word v)).
  split; [vm_compute; reflexivity|]. split; [vm_compute; reflexivity|]. split; [reflexivity|].
  vm_compute. discriminate.
Qed.
Print Assumptions C63_contents_not_enough.

(** A branch with a leaf, a collision list and a branch below. *)
Definition ex_dbg : list (op key N) :=
  [OInsert (0, 0) 1 false; OInsert (128, 0) 2 false; OInsert (4, 0) 3 false; OInsert (5, 0) 4 false; OInsert (8, 0) 56 false].
Example C63_ex : exists m xs, run map_new ex_dbg = Ret (m, xs) /\
  map_debug (fun k => text (show_word (fst k))) (fun v => text (show_word v)) m = text
  "HashTrieMap { set: HashTrie { root: C(CNode { nodes: BitIndexedArray { bits: 7, values: [C(CNode { nodes: BitIndexedArray { bits: 3, values: [S(SNode { key: 0, value: 1 }), S(SNode { key: 128, value: 2 })], extra: 2 } }), L(LNode { key: 5, value: 4, next: S(SNode { key: 4, value: 3 }), size: 2 }), S(SNode { key: 8, value: 56 })], extra: 5 } }) } }".
Proof. do 2 eexists. split; vm_compute; reflexivity. Qed.
(** A value that will not be shown. *)
Example C63_end_ex : exists m xs, run map_new ex_dbg = Ret (m, xs) /\
  map_debug (fun k => text (show_word (fst k))) (fun v => if N.eqb v 2 then ("two?", FErr) else if N.eqb v 4 then ("", FPanic) else text "ok") m =
  ("HashTrieMap { set: HashTrie { root: C(CNode { nodes: BitIndexedArray { bits: 7, values: [C(CNode { nodes: BitIndexedArray { bits: 3, values: [S(SNode { key: 0, value: ok }), S(SNode { key: 128, value: two?", FErr).
Proof. do 2 eexists. split; vm_compute; reflexivity. Qed.
Example C63_set_ex :
  set_debug (fun k : N => text (show_word k)) (MC (BIA 2 [MS (SN 7 tt)] 1)) =
  text "HashTrieSet { set: HashTrie { root: C(CNode { nodes: BitIndexedArray { bits: 2, values: [S(SNode { key: 7, value: () })], extra: 1 } }) } }".
Proof. reflexivity. Qed.
(** Without the condition on keys the text does not tell: a key may show anything. *)
Example C63_tells_ex : exists (sk : bool -> string) (m m' : trie bool N), m <> m' /\
  map_debug (fun k => text (sk k)) (fun v => text (show_word v)) m = map_debug (fun k => text (sk k)) (fun v => text (show_word v)) m'.
Proof. exists (fun _ => "key"), (MS (SN true 1)), (MS (SN false 1)). split; [discriminate|reflexivity]. Qed.

(** * C64 *)

(** Two arrays are [==] exactly when they have the same extra field and, at every bit, both hold
    nothing or hold elements that are [==].  [agree] says the second. *)
Theorem C64_eq : forall A (eqa : A -> A -> bool) w (a b : bia A), made w a -> made w b ->
  (dyn_eq eqa a b = true <-> bextra a = bextra b /\ forall i, agree eqa (bat a (2 ^ i)) (bat b (2 ^ i))).
Proof. exact @array_eq. Qed.
Print Assumptions C64_eq.
(** The other equality, between arrays of one size, is the same and never out of bounds. *)
Theorem C64_eq_impl : forall A (eqa : A -> A -> bool) (a b : bia A), lenN (biter a) = lenN (biter b) ->
  impl_eq eqa a b = Ret (dyn_eq eqa a b).
Proof. exact @array_eq_impl. Qed.
Print Assumptions C64_eq_impl.
(** Iteration yields what is there, by ascending bit. *)
Theorem C64_iter : forall A w (b : bia A), made w b ->
  biter b = flat_map (fun i => match bat b (2 ^ i) with Ok v => [v] | Err _ => [] end)
              (map N.of_nat (seq 0 (N.to_nat (max_ones w)))).
Proof. exact @array_iter. Qed.
Print Assumptions C64_iter.
(** Position [j] is the bit that has [j] bits below it. *)
Theorem C64_at_index : forall A w (b : bia A), made w b ->
  (forall i v, bat b (2 ^ i) = Ok v -> bat_index b (ones_below (bbits b) i) = Ok v) /\
  (forall j v, bat_index b j = Ok v -> exists i, i < max_ones w /\ bat b (2 ^ i) = Ok v /\ ones_below (bbits b) i = j) /\
  (forall j, lenN (biter b) <= j <-> bat_index b j = Err BRange).
Proof. exact @array_at_index. Qed.
Print Assumptions C64_at_index.
(** The functions that take the number of a bit are those that take the bit. *)
Theorem C64_bit_index : forall A w (b : bia A) i v extra,
  (i < max_ones w ->
    binserted_bit_index w b i v extra = binserted b (2 ^ i) v extra /\
    bupdated_bit_index w b i v extra = bupdated b (2 ^ i) v extra /\
    bremoved_bit_index w b i extra = bremoved b (2 ^ i) extra) /\
  (max_ones w <= i ->
    binserted_bit_index w b i v extra = Err BRange /\
    bupdated_bit_index w b i v extra = Err BRange /\
    bremoved_bit_index w b i extra = Err BRange).
Proof. exact @array_bit_index. Qed.
Print Assumptions C64_bit_index.
(** A copy holds copies, at the same bits. *)
Theorem C64_clone : forall A (cl : A -> A) (b : bia A) bit,
  bextra (bclone cl b) = bextra b /\
  bat (bclone cl b) bit = match bat b bit with Ok v => Ok (cl v) | Err e => Err e end.
Proof. exact @array_clone. Qed.
Print Assumptions C64_clone.
Theorem C64_iter_mut : forall A (f : A -> A) (b : bia A) bit,
  bextra (biter_mut f b) = bextra b /\ biter (biter_mut f b) = map f (biter b) /\
  bat (biter_mut f b) bit = match bat b bit with Ok v => Ok (f v) | Err e => Err e end.
Proof. exact @array_iter_mut. Qed.
Print Assumptions C64_iter_mut.
Theorem C64_default : forall A w i, made w (@bdefault A) /\ biter (@bdefault A) = [] /\
  bat (@bdefault A) (2 ^ i) = Err BNotFound /\ bextra (@bdefault A) = 0.
Proof. exact @array_default. Qed.
Print Assumptions C64_default.

Definition ex_arr : bia N := BIA 13 [10; 20; 30] 5.
Example C64_ex : made W8 ex_arr /\
  dyn_eq N.eqb ex_arr (BIA 13 [10; 20; 30] 5) = true /\ dyn_eq N.eqb ex_arr (BIA 13 [10; 20; 30] 6) = false /\
  dyn_eq N.eqb ex_arr (BIA 13 [10; 20; 31] 5) = false /\ dyn_eq N.eqb ex_arr (BIA 14 [10; 20; 30] 5) = false /\
  impl_eq N.eqb ex_arr (BIA 13 [10; 21; 30] 5) = Ret false /\ impl_eq N.eqb ex_arr ex_arr = Ret true /\
  biter ex_arr = [10; 20; 30] /\ bat ex_arr 4 = Ok 20 /\ bat_index ex_arr 1 = Ok 20 /\ bat_index ex_arr 3 = Err BRange /\
  binserted_bit_index W8 ex_arr 1 15 6 = Ok (BIA 15 [10; 15; 20; 30] 6) /\
  bupdated_bit_index W8 ex_arr 2 21 6 = Ok (BIA 13 [10; 21; 30] 6) /\
  bremoved_bit_index W8 ex_arr 0 6 = Ok (BIA 12 [20; 30] 6) /\ bremoved_bit_index W8 ex_arr 8 6 = Err BRange /\
  bclone N.succ ex_arr = BIA 13 [11; 21; 31] 5 /\ bat (biter_mut N.succ ex_arr) 8 = Ok 31.
Proof. split; [apply ok_made; split; reflexivity|]. repeat split; vm_compute; reflexivity. Qed.
