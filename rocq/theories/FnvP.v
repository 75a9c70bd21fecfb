(** Short keys never collide under FNV-1a: they differ in the lowest forty bits. *)
From Coq Require Import NArith ZArith Arith List Bool Lia ZifyBool ZifyN ZifyNat.
From Verif Require Import Base Words Fnv.
Import ListNotations.
Open Scope Z_scope.

(** [lxor] with a byte changes the low byte only. *)
Lemma lxor_byte (h b : N) : (b < 256)%N -> (N.lxor h b / 256 = h / 256)%N.
Proof.
  intros Hb. change 256%N with (2 ^ 8)%N. rewrite <- !N.shiftr_div_pow2, N.shiftr_lxor.
  rewrite (N.shiftr_div_pow2 b), N.div_small by exact Hb. apply N.lxor_0_r.
Qed.

Lemma byte_part (h b : N) : (b < 256)%N -> exists q r s, Z.of_N h = 256 * q + r /\ Z.of_N (N.lxor h b) = 256 * q + s /\ 0 <= r < 256 /\ 0 <= s < 256.
Proof.
  intros Hb. exists (Z.of_N (h / 256)), (Z.of_N (h mod 256)), (Z.of_N (N.lxor h b mod 256)).
  pose proof (lxor_byte h b Hb) as Hq.
  pose proof (N.div_mod h 256 ltac:(discriminate)). pose proof (N.div_mod (N.lxor h b) 256 ltac:(discriminate)).
  pose proof (N.mod_lt h 256 ltac:(discriminate)). pose proof (N.mod_lt (N.lxor h b) 256 ltac:(discriminate)).
  rewrite Hq in *. lia.
Qed.

(** [h] and [h'] are [v] apart, in forty bits. *)
Definition apart (v : Z) (h h' : N) : Prop := exists t, Z.of_N h - Z.of_N h' = v + 2 ^ 40 * t.

Lemma apart_lxor v h h' b b' : (b < 256)%N -> (b' < 256)%N -> apart v h h' ->
  exists x, apart x (N.lxor h b) (N.lxor h' b') /\ Z.abs x <= Z.abs v + 510 /\ (x = 0 -> Z.abs v <= 255).
Proof.
  intros Hb Hb' [t Ht]. destruct (byte_part h b Hb) as (q & r & s & H1 & H2 & H3 & H4).
  destruct (byte_part h' b' Hb') as (q' & r' & s' & H1' & H2' & H3' & H4').
  exists (v - (r - r') + (s - s')). split; [exists t; lia|]. split; [lia|].
  intros Hx. assert (256 * (q - q' - 2 ^ 32 * t) = - (s - s')) by lia. lia.
Qed.

Lemma step_mod (x : N) : exists t, Z.of_N ((x * 0x100000001b3) mod 2 ^ 64) = 435 * Z.of_N x + 2 ^ 40 * t.
Proof.
  exists (Z.of_N x - 2 ^ 24 * Z.of_N ((x * 0x100000001b3) / 2 ^ 64)).
  pose proof (N.div_mod (x * 0x100000001b3) (2 ^ 64) ltac:(discriminate)). lia.
Qed.

Lemma apart_step v h h' b b' : (b < 256)%N -> (b' < 256)%N -> apart v h h' ->
  exists x, apart (435 * x) (fnv_step h b) (fnv_step h' b') /\ Z.abs x <= Z.abs v + 510 /\ (x = 0 -> Z.abs v <= 255).
Proof.
  intros Hb Hb' Ha. destruct (apart_lxor v h h' b b' Hb Hb' Ha) as (x & [t Hx] & H1 & H2). exists x. split; [|auto].
  unfold fnv_step. destruct (step_mod (N.lxor h b)) as [u Hu]. destruct (step_mod (N.lxor h' b')) as [u' Hu'].
  exists (435 * t + u - u'). lia.
Qed.

(** 435 has an inverse in forty bits. *)
Lemma step_cancel x t : 435 * x = 2 ^ 40 * t -> exists u, x = 2 ^ 40 * u.
Proof.
  intros H. assert (Hi : exists i k, 435 * i = 1 + 2 ^ 40 * k) by (exists 376614327675, 149; vm_compute; reflexivity).
  destruct Hi as (i & k & Hi). exists (i * t - k * x). nia.
Qed.

Definition low (n : N) : N := (n mod 2 ^ 40)%N.

Lemma low_apart v h h' : apart v h h' -> low h = low h' -> exists t, v = 2 ^ 40 * t.
Proof.
  intros [t Ht] Hl. unfold low in Hl.
  pose proof (N.div_mod h (2 ^ 40) ltac:(discriminate)) as H1. pose proof (N.div_mod h' (2 ^ 40) ltac:(discriminate)) as H2.
  rewrite Hl in H1. exists (Z.of_N (h / 2 ^ 40) - Z.of_N (h' / 2 ^ 40) - t). lia.
Qed.

(** How far apart hashes may be with [n] bytes to come. *)
Fixpoint room (n : nat) : Z := match n with O => 2 ^ 40 - 511 | S n => room n / 435 - 511 end.

Lemma near : forall l l' b b' h h' v, length l = length l' ->
  Forall (fun x => (x < 256)%N) (b :: l) -> Forall (fun x => (x < 256)%N) (b' :: l') ->
  apart v h h' -> Z.abs v <= room (length l) ->
  low (fold_left fnv_step (b :: l) h) = low (fold_left fnv_step (b' :: l') h') -> Z.abs v <= 255.
Proof.
  induction l as [|c l IH]; intros [|c' l'] b b' h h' v Hl HF HF' Ha Hv He; try discriminate.
  - inversion_clear HF as [|? ? Hb _]. inversion_clear HF' as [|? ? Hb' _]. cbn [fold_left] in He.
    destruct (apart_step v h h' b b' Hb Hb' Ha) as (x & Hx & H1 & H2). apply H2.
    destruct (low_apart _ _ _ Hx He) as [t Ht]. destruct (step_cancel x t Ht) as [u Hu]. cbn [length room] in Hv. lia.
  - inversion_clear HF as [|? ? Hb HF0]. inversion_clear HF' as [|? ? Hb' HF0'].
    destruct (apart_step v h h' b b' Hb Hb' Ha) as (x & Hx & H1 & H2). apply H2.
    change (low (fold_left fnv_step (c :: l) (fnv_step h b)) = low (fold_left fnv_step (c' :: l') (fnv_step h' b'))) in He.
    injection Hl as Hl. cbn [length room] in Hv.
    assert (Hr : Z.abs (435 * x) <= room (length l)).
    { pose proof (Z.mul_div_le (room (length l)) 435 ltac:(lia)). lia. }
    pose proof (IH l' c c' _ _ _ Hl HF0 HF0' Hx Hr He). lia.
Qed.

Lemma apart_0 h : apart 0 h h.
Proof. exists 0. lia. Qed.

Lemma first_byte b b' l l' h : length l = length l' -> (length l <= 3)%nat ->
  Forall (fun x => (x < 256)%N) (b :: l) -> Forall (fun x => (x < 256)%N) (b' :: l') ->
  low (fold_left fnv_step (b :: l) h) = low (fold_left fnv_step (b' :: l') h) -> b = b'.
Proof.
  intros Hl Hn HF HF' He. inversion_clear HF as [|? ? Hb HF0]. inversion_clear HF' as [|? ? Hb' HF0'].
  assert (Hx : N.lxor h b = N.lxor h b').
  { destruct (apart_lxor 0 h h b b' Hb Hb' (apart_0 h)) as (x & [t Ht] & H1 & _).
    destruct (byte_part h b Hb) as (q & r & s & H3 & H4 & H5 & H6). destruct (byte_part h b' Hb') as (q' & r' & s' & H3' & H4' & H5' & H6').
    assert (Hq : q = q') by lia. subst q'.
    assert (Hd : s - s' = 0); [|apply N2Z.inj; lia].
    assert (Ha : apart (s - s') (N.lxor h b) (N.lxor h b')) by (exists 0; lia).
    assert (Hs : apart (435 * (s - s')) (fnv_step h b) (fnv_step h b')).
    { destruct Ha as [u Hu]. unfold fnv_step. destruct (step_mod (N.lxor h b)) as [w Hw]. destruct (step_mod (N.lxor h b')) as [w' Hw'].
      exists (435 * u + w - w'). lia. }
    destruct l as [|c l], l' as [|c' l']; try discriminate.
    - destruct (low_apart _ _ _ Hs He) as [u Hu]. destruct (step_cancel _ _ Hu) as [w Hw]. lia.
    - injection Hl as Hl.
      assert (Hr : Z.abs (435 * (s - s')) <= room (length l)).
      { clear He HF0 HF0'. cbn [length] in Hn. assert (Hc : (length l = 0 \/ length l = 1 \/ length l = 2)%nat) by lia.
        destruct Hc as [->|[->| ->]]; match goal with |- _ <= room ?n => let r := eval vm_compute in (room n) in change (room n) with r end; lia. }
      pose proof (near l l' c c' _ _ _ Hl HF0 HF0' Hs Hr He). lia. }
  assert (N.lxor h (N.lxor h b) = N.lxor h (N.lxor h b')) as H by (rewrite Hx; reflexivity).
  rewrite <- !N.lxor_assoc, N.lxor_nilpotent, !N.lxor_0_l in H. exact H.
Qed.

Theorem fnv_low : forall l l' h, length l = length l' -> (length l <= 4)%nat ->
  Forall (fun x => (x < 256)%N) l -> Forall (fun x => (x < 256)%N) l' ->
  low (fold_left fnv_step l h) = low (fold_left fnv_step l' h) -> l = l'.
Proof.
  induction l as [|b l IH]; intros [|b' l'] h Hl Hn HF HF' He; try discriminate; [reflexivity|].
  injection Hl as Hl. cbn [length] in Hn.
  assert (b = b') by (apply (first_byte b b' l l' h); auto; lia). subst b'. f_equal.
  inversion_clear HF. inversion_clear HF'. apply (IH l' (fnv_step h b)); auto. lia.
Qed.

Lemma fnv_step_lt h b : (fnv_step h b < 2 ^ 64)%N.
Proof. apply N.mod_lt. discriminate. Qed.

Lemma fnv_lt l : (fnv l < 2 ^ 64)%N.
Proof.
  unfold fnv. assert (H : (0xcbf29ce484222325 < 2 ^ 64)%N) by reflexivity.
  revert H. generalize 0xcbf29ce484222325%N. induction l as [|b l IH]; intros h H; [exact H|]. apply IH, fnv_step_lt.
Qed.

Lemma bytes_of_ok n x : length (bytes_of n x) = n /\ Forall (fun b => (b < 256)%N) (bytes_of n x).
Proof.
  revert x. induction n; intros x; cbn [bytes_of length]; [auto|]. destruct (IHn (x / 256)%N) as [-> H].
  split; [reflexivity|]. constructor; [apply N.mod_lt; discriminate|exact H].
Qed.

Lemma bytes_of_inj n : forall x y, (x < 256 ^ N.of_nat n)%N -> (y < 256 ^ N.of_nat n)%N -> bytes_of n x = bytes_of n y -> x = y.
Proof.
  induction n; intros x y Hx Hy He.
  - change (256 ^ N.of_nat 0)%N with 1%N in *. lia.
  - injection He as H1 H2. rewrite Nat2N.inj_succ, N.pow_succ_r' in Hx, Hy.
    assert (x / 256 = y / 256)%N by (apply IHn; auto; apply N.div_lt_upper_bound; lia).
    pose proof (N.div_mod x 256 ltac:(discriminate)). pose proof (N.div_mod y 256 ltac:(discriminate)). lia.
Qed.
