(** The documented laws of the word operations, stated with [N.testbit] only. *)
From Coq Require Import NArith Arith List Bool Lia ZifyBool ZifyN ZifyNat.
From Verif Require Import Base Words WordsP.
Import ListNotations.
Open Scope N_scope.

(** Number of set bits of [a] below position [n]. *)
Definition ones_below (a n : N) : N :=
  N.of_nat (length (filter (fun i => N.testbit a (N.of_nat i)) (seq 0 (N.to_nat n)))).

Lemma ones_below_succ a n : ones_below a (N.succ n) = ones_below a n + N.b2n (N.testbit a n).
Proof.
  unfold ones_below. rewrite N2Nat.inj_succ, seq_S, filter_app, app_length. cbn [filter Nat.add].
  rewrite N2Nat.id. destruct (N.testbit a n); cbn [length N.b2n]; lia.
Qed.

Lemma rank_ones a n : rank a n = ones_below a n.
Proof.
  induction n using N.peano_ind; [apply rank_0|]. rewrite rank_succ, ones_below_succ, IHn. reflexivity.
Qed.

Theorem count_ones_law a n : a < 2 ^ n -> count_ones a = ones_below a n.
Proof. intros H. rewrite <- (rank_full a n H). apply rank_ones. Qed.

Theorem one_bit_law b : count_ones b = 1 <-> exists i, b = 2 ^ i.
Proof. split; [apply count_ones_1_pow2|]. intros [i ->]. apply count_ones_pow2. Qed.

Theorem contains_law a i : bit_contains a (2 ^ i) = Ok (N.testbit a i).
Proof. apply bit_contains_pow2. Qed.

Theorem index_law a i : bit_index a (2 ^ i) = if N.testbit a i then Ok (ones_below a i) else Err BNotFound.
Proof. rewrite bit_index_pow2, rank_ones. reflexivity. Qed.

Lemma lt_bits a n : (forall j, n <= j -> N.testbit a j = false) <-> a < 2 ^ n.
Proof.
  split; [apply bits_lt|]. intros H j Hj. destruct (N.testbit a j) eqn:Ht; [|reflexivity].
  pose proof (testbit_lt _ _ _ H Ht). lia.
Qed.

Theorem insert_law a i :
  if N.testbit a i then bit_insert a (2 ^ i) = Err BFound
  else exists r, bit_insert a (2 ^ i) = Ok r /\ (forall j, N.testbit r j = N.testbit a j || (i =? j)) /\
         bit_remove r (2 ^ i) = Ok a /\ forall n, i < n -> a < 2 ^ n -> r < 2 ^ n.
Proof.
  rewrite bit_insert_pow2. destruct (N.testbit a i) eqn:Ht; [reflexivity|].
  exists (N.lor a (2 ^ i)). split; [reflexivity|]. split; [intros; apply testbit_lor_pow2|]. split.
  - rewrite bit_remove_pow2, testbit_lor_pow2, N.eqb_refl, orb_true_r. f_equal. apply N.bits_inj. intros j.
    rewrite testbit_lxor_pow2, testbit_lor_pow2. destruct (N.eqb_spec i j) as [<-|]; [rewrite Ht; reflexivity|].
    rewrite orb_false_r, xorb_false_r. reflexivity.
  - intros n Hi Ha. apply lt_bits. intros j Hj. rewrite testbit_lor_pow2. rewrite (proj2 (lt_bits a n) Ha j Hj).
    destruct (N.eqb_spec i j); [lia|reflexivity].
Qed.

Theorem remove_law a i :
  if N.testbit a i then exists r, bit_remove a (2 ^ i) = Ok r /\
         (forall j, N.testbit r j = N.testbit a j && negb (i =? j)) /\
         bit_insert r (2 ^ i) = Ok a /\ forall n, a < 2 ^ n -> r < 2 ^ n
  else bit_remove a (2 ^ i) = Err BNotFound.
Proof.
  rewrite bit_remove_pow2. destruct (N.testbit a i) eqn:Ht; [|reflexivity].
  assert (Hr : forall j, N.testbit (N.lxor a (2 ^ i)) j = N.testbit a j && negb (i =? j)).
  { intros j. rewrite testbit_lxor_pow2. destruct (N.eqb_spec i j) as [<-|]; [rewrite Ht; reflexivity|].
    rewrite xorb_false_r, andb_true_r. reflexivity. }
  exists (N.lxor a (2 ^ i)). split; [reflexivity|]. split; [exact Hr|]. split.
  - rewrite bit_insert_pow2, Hr, N.eqb_refl, andb_false_r. f_equal. apply N.bits_inj. intros j.
    rewrite testbit_lor_pow2, Hr. destruct (N.eqb_spec i j) as [<-|]; [rewrite Ht; reflexivity|].
    rewrite orb_false_r, andb_true_r. reflexivity.
  - intros n Ha. apply lt_bits. intros j Hj. rewrite Hr. rewrite (proj2 (lt_bits a n) Ha j Hj). reflexivity.
Qed.

Theorem merge_law a b :
  (bit_merge a b = Err BFound /\ exists j, N.testbit a j = true /\ N.testbit b j = true) \/
  (exists r, bit_merge a b = Ok r /\ (forall j, N.testbit r j = N.testbit a j || N.testbit b j) /\
     forall j, N.testbit a j && N.testbit b j = false).
Proof.
  unfold bit_merge. destruct (N.eqb_spec (N.land a b) 0) as [H|H]; cbn [negb].
  - right. exists (N.lor a b). split; [reflexivity|]. split; [intros; apply N.lor_spec|].
    intros j. rewrite <- N.land_spec, H. apply N.bits_0.
  - left. split; [reflexivity|]. exists (N.log2 (N.land a b)).
    pose proof (N.bit_log2 _ H) as Hb. rewrite N.land_spec in Hb. apply andb_true_iff in Hb. exact Hb.
Qed.

Theorem nth_bit_law w n :
  if n <? max_ones w then exists r, nth_bit w n = Ok r /\ forall j, N.testbit r j = (n =? j)
  else nth_bit w n = Err BRange.
Proof.
  destruct (N.ltb_spec n (max_ones w)).
  - exists (2 ^ n). split; [apply nth_bit_ok; assumption|]. intros j. apply N.pow2_bits_eqb.
  - apply nth_bit_err. assumption.
Qed.

Theorem count_error_law a b : count_ones b <> 1 ->
  bit_contains a b = Err CountNotEqualToOne /\ bit_index a b = Err CountNotEqualToOne /\
  bit_insert a b = Err CountNotEqualToOne /\ bit_remove a b = Err CountNotEqualToOne.
Proof.
  intros H. unfold bit_contains, bit_index, bit_insert, bit_remove.
  destruct (N.eqb_spec (count_ones b) 1); [contradiction|]. auto.
Qed.

Theorem log_law w : max_ones w = 2 ^ log_b w /\ mask_log_b w = 2 ^ log_b w - 1.
Proof. destruct w; split; reflexivity. Qed.

(** Narrowing of the 64-bit hash. *)
Theorem hasher_law w x : hasher_bv w x = if x <? 2 ^ max_ones w then Ret x else Panic.
Proof. unfold hasher_bv, try_from. destruct (x <? 2 ^ max_ones w); reflexivity. Qed.

Theorem hasher_wide w x : 64 <= max_ones w -> x < 2 ^ 64 -> hasher_bv w x = Ret x.
Proof.
  intros Hw Hx. rewrite hasher_law. destruct (N.ltb_spec x (2 ^ max_ones w)) as [|Hge]; [reflexivity|].
  exfalso. assert (2 ^ 64 <= 2 ^ max_ones w) by (apply N.pow_le_mono_r; lia). lia.
Qed.
