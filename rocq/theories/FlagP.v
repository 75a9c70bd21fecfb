(** Facts about hash slices. *)
From Coq Require Import NArith Arith List Bool Lia ZifyBool ZifyN ZifyNat.
From Verif Require Import Base Words WordsP Flag.
Open Scope N_scope.

Section FlagP.
Context {E : Env}.

(** First bit of the slice used at depth [d]. *)
Definition off (d : N) : N := d * log_b fw.
(** The slice of hash [h] used at depth [d]. *)
Definition idx (d h : N) : N := (h / 2 ^ off d) mod 2 ^ log_b fw.
(** The slices of [h] above depth [d], as a number. *)
Definition pre (d h : N) : N := h mod 2 ^ off d.
Definition hbits : N := max_ones hw.

Lemma off_succ d : off (d + 1) = off d + log_b fw.
Proof. unfold off. lia. Qed.

Lemma off_lt d : off d < off (d + 1).
Proof. rewrite off_succ. pose proof (log_b_pos fw). lia. Qed.

Lemma idx_lt d h : idx d h < max_ones fw.
Proof. unfold idx. rewrite max_ones_log. apply N.mod_lt. apply pow2_ne0. Qed.

Lemma pre_0 h : pre 0 h = 0.
Proof. unfold pre, off. rewrite N.mul_0_l. change (2 ^ 0) with 1. apply N.mod_1_r. Qed.

Lemma pre_succ d h : pre (d + 1) h = pre d h + idx d h * 2 ^ off d.
Proof.
  unfold pre, idx. rewrite off_succ, N.pow_add_r. rewrite N.mod_mul_r by apply pow2_ne0. lia.
Qed.

Lemma pre_lt d h : pre d h < 2 ^ off d.
Proof. apply N.mod_lt. apply pow2_ne0. Qed.

Lemma pre_idx d h p i : p < 2 ^ off d -> pre (d + 1) h = p + i * 2 ^ off d -> pre d h = p /\ idx d h = i.
Proof.
  intros Hp H. rewrite pre_succ in H. pose proof (pre_lt d h). pose proof (pow2_ne0 (off d)).
  assert (Hi : idx d h = i).
  { apply (f_equal (fun x => x / 2 ^ off d)) in H. rewrite !N.div_add in H by assumption.
    rewrite !N.div_small in H by assumption. lia. }
  split; [|assumption]. rewrite Hi in H. lia.
Qed.

Lemma pre_full d h : hbits <= off d -> h < 2 ^ hbits -> pre d h = h.
Proof.
  intros Hd Hh. unfold pre. apply N.mod_small. eapply N.lt_le_trans; [exact Hh|].
  apply N.pow_le_mono_r; lia.
Qed.

Lemma slice_bit_ok h : slice_bit h = Ret (2 ^ (h mod 2 ^ log_b fw)).
Proof.
  unfold slice_bit. rewrite mask_ones, N.land_ones.
  assert (Hlt : h mod 2 ^ log_b fw < 2 ^ log_b fw) by (apply N.mod_lt; apply pow2_ne0).
  assert (Hf : try_from fw (h mod 2 ^ log_b fw) = Ok (h mod 2 ^ log_b fw)).
  { unfold try_from. destruct (N.ltb_spec (h mod 2 ^ log_b fw) (2 ^ max_ones fw)); [reflexivity|].
    exfalso. assert (2 ^ log_b fw <= 2 ^ max_ones fw); [|lia].
    apply N.pow_le_mono_r; [lia|]. pose proof (log_b_le fw). pose proof (max_ones_ge fw). lia. }
  rewrite Hf. cbn [unwrap_ok bind].
  rewrite nth_bit_ok by (rewrite max_ones_log; assumption). reflexivity.
Qed.

Lemma flag_new_ok h : flag_new h = Ret (mkFlag h 0 (2 ^ idx 0 h)).
Proof.
  unfold flag_new. rewrite slice_bit_ok. cbn [bind]. unfold idx, off. rewrite N.mul_0_l.
  change (2 ^ 0) with 1. rewrite N.div_1_r. reflexivity.
Qed.

Lemma guard_ok d : off d < 8 * hbits -> (8 * max_ones hw <=? d * log_b fw) = false.
Proof. unfold off, hbits. intros. destruct (N.leb_spec (8 * max_ones hw) (d * log_b fw)); lia. Qed.

Lemma flag_at_ok h d : off d < hbits -> flag_new_at_depth h d = Ret (Some (mkFlag h d (2 ^ idx d h))).
Proof.
  intros Hd. unfold flag_new_at_depth. rewrite guard_ok by (unfold hbits in *; lia).
  unfold shr. unfold off, hbits in Hd. destruct (N.ltb_spec (d * log_b fw) (max_ones hw)); [|lia].
  cbn [bind]. rewrite slice_bit_ok. cbn [bind]. unfold idx. rewrite N.shiftr_div_pow2. reflexivity.
Qed.

(** One slice past the end of the hash: debug builds panic, release builds
    compute a flag with an arbitrary bit. *)
Lemma flag_past h d : off d < hbits -> hbits <= off (d + 1) ->
  flag_new_at_depth h (d + 1) =
  if checked then Panic
  else Ret (Some (mkFlag h (d + 1) (2 ^ (N.shiftr h (off (d + 1) mod hbits) mod 2 ^ log_b fw)))).
Proof.
  intros Hd He. unfold flag_new_at_depth.
  rewrite guard_ok.
  2:{ rewrite off_succ. pose proof (log_b_le fw). pose proof (max_ones_ge hw). unfold hbits in *. lia. }
  unfold shr. unfold off, hbits in *. destruct (N.ltb_spec ((d + 1) * log_b fw) (max_ones hw)); [lia|].
  destruct checked; [reflexivity|]. cbn [bind]. rewrite slice_bit_ok. reflexivity.
Qed.

(** What is known about the flag handed to a node at depth [d]. *)
Definition flag_for (d h : N) (f : Flag) : Prop :=
  fl_hash f = h /\ fl_depth f = d /\ (off d < hbits -> fl_flag f = 2 ^ idx d h).

Lemma flag_for_at h d : off d < hbits -> flag_for d h (mkFlag h d (2 ^ idx d h)).
Proof. intros. repeat split. Qed.

(** [next] on the flag of a branch node at depth [d]. *)
Lemma flag_next_cases d h f : flag_for d h f -> off d < hbits ->
  (checked = true /\ hbits <= off (d + 1) /\ flag_next f = Panic) \/
  ((checked = false \/ off (d + 1) < hbits) /\ exists g, flag_next f = Ret (Some g) /\ flag_for (d + 1) h g).
Proof.
  intros (Hh & Hd & Hf) Ho. unfold flag_next. rewrite Hh, Hd.
  destruct (N.lt_ge_cases (off (d + 1)) hbits) as [Hlt|Hge].
  - right. split; [right; assumption|]. rewrite flag_at_ok by assumption. eexists; split; [reflexivity|].
    apply flag_for_at. assumption.
  - rewrite flag_past by assumption. destruct checked; [left; auto|]. right. split; [left; reflexivity|].
    eexists; split; [reflexivity|]. repeat split; cbn. lia.
Qed.

Lemma flag_next_ok d h f : flag_for d h f -> off (d + 1) < hbits ->
  flag_next f = Ret (Some (mkFlag h (d + 1) (2 ^ idx (d + 1) h))).
Proof.
  intros (Hh & Hd & Hf) Ho. unfold flag_next. rewrite Hh, Hd. apply flag_at_ok. assumption.
Qed.

End FlagP.
