(** C29, C30: word operations and hash narrowing. *)
From Coq Require Import NArith List Bool.
From Verif Require Import Base Words WordLaws.
Import ListNotations.
Open Scope N_scope.

(** * C29 *)
Theorem C29_count_ones : forall a n, a < 2 ^ n -> count_ones a = ones_below a n.
Proof. exact count_ones_law. Qed.
Print Assumptions C29_count_ones.
Example C29_count_ones_ex : (22 < 2 ^ 8 /\ count_ones 22 = 3 /\ ones_below 22 8 = 3)%N.
Proof. vm_compute. auto. Qed.

Theorem C29_one_bit : forall b, count_ones b = 1 <-> exists i, b = 2 ^ i.
Proof. exact one_bit_law. Qed.
Print Assumptions C29_one_bit.
Example C29_one_bit_ex : count_ones (2 ^ 100) = 1 /\ count_ones 0 <> 1 /\ count_ones 6 <> 1.
Proof. vm_compute. repeat split; discriminate. Qed.

Theorem C29_contains : forall a i, bit_contains a (2 ^ i) = Ok (N.testbit a i).
Proof. exact contains_law. Qed.
Print Assumptions C29_contains.
Example C29_contains_ex : bit_contains 22 (2 ^ 2) = Ok true /\ bit_contains 22 (2 ^ 3) = Ok false.
Proof. vm_compute. auto. Qed.

Theorem C29_index : forall a i,
  bit_index a (2 ^ i) = if N.testbit a i then Ok (ones_below a i) else Err BNotFound.
Proof. exact index_law. Qed.
Print Assumptions C29_index.
Example C29_index_ex : bit_index 22 (2 ^ 4) = Ok 2 /\ bit_index 22 (2 ^ 3) = Err BNotFound.
Proof. vm_compute. auto. Qed.

Theorem C29_insert : forall a i,
  if N.testbit a i then bit_insert a (2 ^ i) = Err BFound
  else exists r, bit_insert a (2 ^ i) = Ok r /\ (forall j, N.testbit r j = N.testbit a j || (i =? j)) /\
         bit_remove r (2 ^ i) = Ok a /\ forall n, i < n -> a < 2 ^ n -> r < 2 ^ n.
Proof. exact insert_law. Qed.
Print Assumptions C29_insert.
Example C29_insert_ex : bit_insert 18 (2 ^ 2) = Ok 22 /\ bit_remove 22 (2 ^ 2) = Ok 18 /\ bit_insert 22 (2 ^ 2) = Err BFound.
Proof. vm_compute. auto. Qed.

Theorem C29_remove : forall a i,
  if N.testbit a i then exists r, bit_remove a (2 ^ i) = Ok r /\
         (forall j, N.testbit r j = N.testbit a j && negb (i =? j)) /\
         bit_insert r (2 ^ i) = Ok a /\ forall n, a < 2 ^ n -> r < 2 ^ n
  else bit_remove a (2 ^ i) = Err BNotFound.
Proof. exact remove_law. Qed.
Print Assumptions C29_remove.
Example C29_remove_ex : bit_remove 22 (2 ^ 1) = Ok 20 /\ bit_remove 20 (2 ^ 1) = Err BNotFound.
Proof. vm_compute. auto. Qed.

Theorem C29_merge : forall a b,
  (bit_merge a b = Err BFound /\ exists j, N.testbit a j = true /\ N.testbit b j = true) \/
  (exists r, bit_merge a b = Ok r /\ (forall j, N.testbit r j = N.testbit a j || N.testbit b j) /\
     forall j, N.testbit a j && N.testbit b j = false).
Proof. exact merge_law. Qed.
Print Assumptions C29_merge.
Example C29_merge_ex : bit_merge 18 5 = Ok 23 /\ bit_merge 18 6 = Err BFound.
Proof. vm_compute. auto. Qed.

Theorem C29_nth_bit : forall w n,
  if n <? max_ones w then exists r, nth_bit w n = Ok r /\ forall j, N.testbit r j = (n =? j)
  else nth_bit w n = Err BRange.
Proof. exact nth_bit_law. Qed.
Print Assumptions C29_nth_bit.
Example C29_nth_bit_ex : nth_bit W32 4 = Ok 16 /\ nth_bit W32 31 = Ok (2 ^ 31) /\ nth_bit W32 32 = Err BRange.
Proof. vm_compute. auto. Qed.

Theorem C29_count_errors : forall a b, count_ones b <> 1 ->
  bit_contains a b = Err CountNotEqualToOne /\ bit_index a b = Err CountNotEqualToOne /\
  bit_insert a b = Err CountNotEqualToOne /\ bit_remove a b = Err CountNotEqualToOne.
Proof. exact count_error_law. Qed.
Print Assumptions C29_count_errors.
Example C29_count_errors_ex : count_ones 6 <> 1 /\ bit_index 22 6 = Err CountNotEqualToOne.
Proof. split; [discriminate|reflexivity]. Qed.

Theorem C29_log : forall w, max_ones w = 2 ^ log_b w /\ mask_log_b w = 2 ^ log_b w - 1.
Proof. exact log_law. Qed.
Print Assumptions C29_log.
Example C29_log_ex : log_b W32 = 5 /\ mask_log_b W32 = 31.
Proof. auto. Qed.

(** * C30 *)
(** Full statement, false: narrowing never panics. *)
Theorem C30_narrow_hashers_refuted : exists w x, x < 2 ^ 64 /\ hasher_bv w x = Panic.
Proof. exists W32, (2 ^ 40). split; reflexivity. Qed.
Print Assumptions C30_narrow_hashers_refuted.

(** The exact condition. *)
Theorem C30_panics_iff_too_wide : forall w x, hasher_bv w x = if x <? 2 ^ max_ones w then Ret x else Panic.
Proof. exact hasher_law. Qed.
Print Assumptions C30_panics_iff_too_wide.
Example C30_panics_iff_too_wide_ex : hasher_bv W16 65535 = Ret 65535 /\ hasher_bv W16 65536 = Panic.
Proof. vm_compute. auto. Qed.

(** What holds: words of at least 64 bits. *)
Theorem C30_wide_hashers_partial : forall w x, 64 <= max_ones w -> x < 2 ^ 64 -> hasher_bv w x = Ret x.
Proof. exact hasher_wide. Qed.
Print Assumptions C30_wide_hashers_partial.
Example C30_wide_hashers_ex : 64 <= max_ones W64 /\ hasher_bv W64 (2 ^ 64 - 1) = Ret (2 ^ 64 - 1).
Proof. vm_compute. split; [discriminate|reflexivity]. Qed.
