(** Word bit operations (src/traits.rs). *)
From Coq Require Import NArith List Bool.
From Verif Require Import Base.
Open Scope N_scope.

(** results.rs:6-16 *)
Inductive BitError : Set := CountNotEqualToOne | BFound | BNotFound | BRange.

(** [u*::count_ones] (core). *)
Fixpoint pcount (p : positive) : N :=
  match p with
  | xH => 1
  | xO q => pcount q
  | xI q => 1 + pcount q
  end.
(** traits.rs:129-141, [CountOnes::count_ones_t]. *)
Definition count_ones (n : N) : N :=
  match n with N0 => 0 | Npos p => pcount p end.

(** traits.rs:59-70, [BitContains::bit_contains]; macro bit_count_one 5-11. *)
Definition bit_contains (self bit : N) : result bool BitError :=
  if negb (count_ones bit =? 1) then Err CountNotEqualToOne
  else Ok (negb (N.land self bit =? 0)).

(** traits.rs:73-84, [BitIndex::bit_index]; macro bit_found 13-20. *)
Definition bit_index (self bit : N) : result N BitError :=
  if negb (count_ones bit =? 1) then Err CountNotEqualToOne
  else if N.land self bit =? 0 then Err BNotFound
  else Ok (count_ones (N.land self (bit - 1))).

(** traits.rs:87-98, [BitInsert::bit_insert]; macro bit_not_found 30-35. *)
Definition bit_insert (self bit : N) : result N BitError :=
  if negb (count_ones bit =? 1) then Err CountNotEqualToOne
  else if negb (N.land self bit =? 0) then Err BFound
  else Ok (N.lor self bit).

(** traits.rs:101-112, [BitMerge::bit_merge]; macro bits_not_found 22-28. *)
Definition bit_merge (self bits : N) : result N BitError :=
  if negb (N.land self bits =? 0) then Err BFound
  else Ok (N.lor self bits).

(** traits.rs:115-126, [BitRemove::bit_remove]. *)
Definition bit_remove (self bit : N) : result N BitError :=
  if negb (count_ones bit =? 1) then Err CountNotEqualToOne
  else if N.land self bit =? 0 then Err BNotFound
  else Ok (N.lxor self bit).

(** traits.rs:144-167, [LogB::log_b] (the usize case is the one of its size). *)
Definition log_b (w : width) : N :=
  match w with W8 => 3 | W16 => 4 | W32 => 5 | W64 => 6 | W128 => 7 end.

(** traits.rs:170-193, [MaskLogB::mask_log_b]. *)
Definition mask_log_b (w : width) : N :=
  match w with W8 => 7 | W16 => 15 | W32 => 31 | W64 => 63 | W128 => 127 end.

(** traits.rs:211-222, [NthBit::nth_bit]; macro bit_in_range 37-43. *)
Definition nth_bit (w : width) (n : N) : result N BitError :=
  if max_ones w <=? n then Err BRange else Ok (N.shiftl 1 n).

(** [TryFrom] between unsigned words: fails iff the value does not fit. *)
Definition try_from (w : width) (n : N) : result N unit :=
  if n <? 2 ^ max_ones w then Ok n else Err tt.

(** traits.rs:249-267, the hasher impls: [finish()] is a u64, narrowed by
    [try_into().unwrap()]. *)
Definition hasher_bv (w : width) (finish : N) : outcome N :=
  unwrap_ok (try_from w finish).

(** [Shr<usize>] on a word of width [w] (core): shifting by at least the width
    panics with overflow checks and is masked without. *)
Definition shr (checked : bool) (w : width) (a n : N) : outcome N :=
  if n <? max_ones w then Ret (N.shiftr a n)
  else if checked then Panic
  else Ret (N.shiftr a (n mod max_ones w)).
