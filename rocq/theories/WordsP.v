(** Facts about word bit operations. *)
From Coq Require Import NArith Arith List Bool Lia ZifyBool ZifyN ZifyNat.
From Verif Require Import Base Words.
Open Scope N_scope.

Lemma count_ones_double : forall n, count_ones (2 * n) = count_ones n.
Proof. intros [|p]; reflexivity. Qed.

Lemma count_ones_succ_double : forall n, count_ones (2 * n + 1) = 1 + count_ones n.
Proof. intros [|p]; reflexivity. Qed.

Lemma count_ones_pos : forall p, 1 <= pcount p.
Proof. induction p; cbn [pcount]; lia. Qed.

Lemma count_ones_0 : forall n, count_ones n = 0 <-> n = 0.
Proof.
  intros [|p]; cbn [count_ones]; split; intros H; try reflexivity; try discriminate.
  pose proof (count_ones_pos p). lia.
Qed.

Lemma pcount_lor : forall p q, Pos.land p q = 0 -> pcount (Pos.lor p q) = pcount p + pcount q.
Proof.
  induction p; destruct q; cbn [Pos.land Pos.lor pcount]; intros H;
    try (destruct (Pos.land p q) eqn:HL; cbn in H; try discriminate);
    try discriminate; try (rewrite IHp by assumption); lia.
Qed.

Lemma count_ones_lor : forall a b, N.land a b = 0 -> count_ones (N.lor a b) = count_ones a + count_ones b.
Proof.
  intros [|p] [|q]; cbn [N.lor count_ones]; intros H; try lia.
  apply pcount_lor. exact H.
Qed.

Lemma count_ones_pow2 : forall n, count_ones (2 ^ n) = 1.
Proof.
  intros n. induction n using N.peano_ind; [reflexivity|].
  rewrite N.pow_succ_r' , count_ones_double. assumption.
Qed.

Lemma count_ones_1_pow2 : forall n, count_ones n = 1 -> exists k, n = 2 ^ k.
Proof.
  intros [|p]; cbn [count_ones]; [discriminate|].
  induction p; cbn [pcount]; intros H.
  - pose proof (count_ones_pos p). lia.
  - destruct (IHp H) as [k Hk]. exists (N.succ k). rewrite N.pow_succ_r'. lia.
  - exists 0. reflexivity.
Qed.

Lemma shiftl_1 : forall n, N.shiftl 1 n = 2 ^ n.
Proof. intros. rewrite N.shiftl_mul_pow2. lia. Qed.

Lemma land_pow2 : forall a i, N.land a (2 ^ i) = if N.testbit a i then 2 ^ i else 0.
Proof.
  intros. apply N.bits_inj. intros j. rewrite N.land_spec, N.pow2_bits_eqb.
  destruct (N.testbit a i) eqn:H; destruct (N.eqb_spec i j) as [->|Hn].
  - rewrite N.pow2_bits_true, H. reflexivity.
  - rewrite N.pow2_bits_false by assumption. apply andb_false_r.
  - rewrite H, N.bits_0. reflexivity.
  - rewrite N.bits_0. apply andb_false_r.
Qed.

Lemma pow2_ne0 : forall i, 2 ^ i <> 0.
Proof. intros. apply N.pow_nonzero. lia. Qed.

Lemma land_pow2_eqb : forall a i, (N.land a (2 ^ i) =? 0) = negb (N.testbit a i).
Proof.
  intros. rewrite land_pow2. destruct (N.testbit a i); cbn [negb].
  - apply N.eqb_neq. apply pow2_ne0.
  - reflexivity.
Qed.

(** The number of set bits below position [i]. *)
Definition rank (bits i : N) : N := count_ones (N.land bits (2 ^ i - 1)).

Lemma ones_pred : forall i, 2 ^ i - 1 = N.ones i.
Proof. intros. rewrite N.ones_equiv, N.sub_1_r. reflexivity. Qed.

Lemma land_ones_bits : forall a i j, N.testbit (N.land a (N.ones i)) j = (N.testbit a j && (j <? i))%bool.
Proof.
  intros. rewrite N.land_spec. f_equal. destruct (N.ltb_spec j i).
  - apply N.ones_spec_low. assumption.
  - apply N.ones_spec_high. assumption.
Qed.

Lemma rank_0 : forall bits, rank bits 0 = 0.
Proof. intros. unfold rank. change (2 ^ 0 - 1) with 0. rewrite N.land_0_r. reflexivity. Qed.

Lemma rank_succ : forall bits i, rank bits (N.succ i) = rank bits i + N.b2n (N.testbit bits i).
Proof.
  intros. unfold rank. rewrite !ones_pred.
  assert (HH : N.land bits (N.ones (N.succ i)) = N.lor (N.land bits (N.ones i)) (N.land bits (2 ^ i))).
  { apply N.bits_inj. intros j. rewrite N.lor_spec, !land_ones_bits, N.land_spec.
    destruct (N.testbit bits j); cbn [andb orb]; [|reflexivity].
    destruct (N.eqb_spec i j) as [->|Hn].
    - rewrite N.pow2_bits_true. rewrite orb_true_r. apply N.ltb_lt. lia.
    - rewrite N.pow2_bits_false by assumption. rewrite orb_false_r.
      destruct (N.ltb_spec j (N.succ i)), (N.ltb_spec j i); lia. }
  rewrite HH, count_ones_lor.
  - f_equal. rewrite land_pow2. destruct (N.testbit bits i); [apply count_ones_pow2|reflexivity].
  - apply N.bits_inj. intros j. rewrite N.land_spec, land_ones_bits, N.land_spec, N.bits_0.
    destruct (N.eqb_spec i j) as [->|Hn].
    + rewrite N.ltb_irrefl, andb_false_r. reflexivity.
    + rewrite N.pow2_bits_false by assumption. rewrite !andb_false_r. reflexivity.
Qed.

Lemma land_ones_small : forall bits n, bits < 2 ^ n -> N.land bits (N.ones n) = bits.
Proof. intros. rewrite N.land_ones. apply N.mod_small. assumption. Qed.

Lemma rank_full : forall bits n, bits < 2 ^ n -> rank bits n = count_ones bits.
Proof. intros. unfold rank. rewrite ones_pred, land_ones_small by assumption. reflexivity. Qed.

Lemma rank_mono : forall bits i j, i <= j -> rank bits i <= rank bits j.
Proof.
  intros bits i j H. induction j using N.peano_ind.
  - replace i with 0 by lia. lia.
  - destruct (N.eq_dec i (N.succ j)) as [->|]; [lia|].
    rewrite rank_succ. specialize (IHj ltac:(lia)). lia.
Qed.

Lemma rank_le_count : forall bits i, rank bits i <= count_ones bits.
Proof.
  intros. destruct (N.le_ge_cases (N.size bits) i) as [H|H].
  - rewrite rank_full. lia. apply N.lt_le_trans with (2 ^ N.size bits).
    apply N.size_gt. apply N.pow_le_mono_r; lia.
  - rewrite <- (rank_full bits (N.size bits)) by apply N.size_gt. apply rank_mono. assumption.
Qed.

Lemma rank_lt_count : forall bits i, N.testbit bits i = true -> rank bits i < count_ones bits.
Proof.
  intros. pose proof (rank_le_count bits (N.succ i)). rewrite rank_succ, H in H0.
  cbn [N.b2n] in H0. lia.
Qed.

Lemma count_ones_lt : forall bits n, bits < 2 ^ n -> count_ones bits <= n.
Proof.
  intros bits n H. rewrite <- (rank_full bits n H). clear H.
  induction n using N.peano_ind; [rewrite rank_0; lia|].
  rewrite rank_succ. destruct (N.testbit bits n); cbn [N.b2n]; lia.
Qed.

Lemma testbit_lt : forall bits n i, bits < 2 ^ n -> N.testbit bits i = true -> i < n.
Proof.
  intros bits n i H Ht. destruct (N.lt_ge_cases i n) as [|Hge]; [assumption|exfalso].
  rewrite <- (land_ones_small bits n H), land_ones_bits in Ht.
  destruct (N.ltb_spec i n); [lia|]. rewrite andb_false_r in Ht. discriminate.
Qed.

Lemma bits_lt : forall bits n, (forall i, n <= i -> N.testbit bits i = false) -> bits < 2 ^ n.
Proof.
  intros bits n H. assert (HH : N.land bits (N.ones n) = bits).
  { apply N.bits_inj. intros j. rewrite land_ones_bits. destruct (N.ltb_spec j n).
    apply andb_true_r. rewrite H by assumption. reflexivity. }
  rewrite <- HH, N.land_ones. apply N.mod_lt. apply pow2_ne0.
Qed.

(** * The operations on a one-bit word *)

Lemma bit_index_pow2 : forall a i,
  bit_index a (2 ^ i) = if N.testbit a i then Ok (rank a i) else Err BNotFound.
Proof.
  intros. unfold bit_index. rewrite count_ones_pow2, land_pow2_eqb.
  change (negb (1 =? 1)) with false. cbn iota.
  destruct (N.testbit a i); reflexivity.
Qed.

Lemma bit_insert_pow2 : forall a i,
  bit_insert a (2 ^ i) = if N.testbit a i then Err BFound else Ok (N.lor a (2 ^ i)).
Proof.
  intros. unfold bit_insert. rewrite count_ones_pow2, land_pow2_eqb.
  change (negb (1 =? 1)) with false. cbn iota.
  destruct (N.testbit a i); reflexivity.
Qed.

Lemma bit_remove_pow2 : forall a i,
  bit_remove a (2 ^ i) = if N.testbit a i then Ok (N.lxor a (2 ^ i)) else Err BNotFound.
Proof.
  intros. unfold bit_remove. rewrite count_ones_pow2, land_pow2_eqb.
  change (negb (1 =? 1)) with false. cbn iota.
  destruct (N.testbit a i); reflexivity.
Qed.

Lemma bit_contains_pow2 : forall a i, bit_contains a (2 ^ i) = Ok (N.testbit a i).
Proof.
  intros. unfold bit_contains. rewrite count_ones_pow2, land_pow2_eqb.
  change (negb (1 =? 1)) with false. cbn iota. rewrite negb_involutive. reflexivity.
Qed.

Lemma testbit_lor_pow2 : forall a i j, N.testbit (N.lor a (2 ^ i)) j = (N.testbit a j || (i =? j))%bool.
Proof. intros. rewrite N.lor_spec, N.pow2_bits_eqb. reflexivity. Qed.

Lemma testbit_lxor_pow2 : forall a i j, N.testbit (N.lxor a (2 ^ i)) j = xorb (N.testbit a j) (i =? j).
Proof. intros. rewrite N.lxor_spec, N.pow2_bits_eqb. reflexivity. Qed.

Lemma rank_ext : forall a b i, (forall j, j < i -> N.testbit a j = N.testbit b j) -> rank a i = rank b i.
Proof.
  intros a b i H. induction i using N.peano_ind; [now rewrite !rank_0|].
  rewrite !rank_succ, IHi. rewrite H by lia. reflexivity. intros. apply H. lia.
Qed.

Lemma count_ones_lor_pow2 : forall a i, N.testbit a i = false -> count_ones (N.lor a (2 ^ i)) = count_ones a + 1.
Proof.
  intros. rewrite count_ones_lor. rewrite count_ones_pow2. reflexivity.
  apply N.eqb_eq. rewrite land_pow2_eqb, H. reflexivity.
Qed.

Lemma count_ones_lxor_pow2 : forall a i, N.testbit a i = true -> count_ones (N.lxor a (2 ^ i)) + 1 = count_ones a.
Proof.
  intros.
  assert (HH : a = N.lor (N.lxor a (2 ^ i)) (2 ^ i)).
  { apply N.bits_inj. intros j. rewrite testbit_lor_pow2, testbit_lxor_pow2.
    destruct (N.eqb_spec i j) as [->|]. rewrite H. reflexivity.
    rewrite xorb_false_r, orb_false_r. reflexivity. }
  rewrite HH at 2. rewrite count_ones_lor_pow2. reflexivity.
  rewrite testbit_lxor_pow2, H, N.eqb_refl. reflexivity.
Qed.

(** * Widths *)

Lemma max_ones_log : forall w, max_ones w = 2 ^ log_b w.
Proof. destruct w; reflexivity. Qed.
Lemma mask_ones : forall w, mask_log_b w = N.ones (log_b w).
Proof. destruct w; reflexivity. Qed.
Lemma max_ones_pos : forall w, 0 < max_ones w.
Proof. destruct w; reflexivity. Qed.
Lemma max_ones_le : forall w, max_ones w <= 128.
Proof. destruct w; cbn; lia. Qed.
Lemma log_b_pos : forall w, 0 < log_b w.
Proof. destruct w; reflexivity. Qed.
Lemma log_b_le : forall w, log_b w <= 7.
Proof. destruct w; cbn; lia. Qed.
Lemma max_ones_ge : forall w, 8 <= max_ones w.
Proof. destruct w; cbn; lia. Qed.

Lemma nth_bit_ok : forall w i, i < max_ones w -> nth_bit w i = Ok (2 ^ i).
Proof.
  intros. unfold nth_bit. destruct (N.leb_spec (max_ones w) i); [lia|]. rewrite shiftl_1. reflexivity.
Qed.

Lemma nth_bit_err : forall w i, max_ones w <= i -> nth_bit w i = Err BRange.
Proof. intros. unfold nth_bit. destruct (N.leb_spec (max_ones w) i); [reflexivity|lia]. Qed.
