(** Arithmetic of the tests' numbers. *)
From Coq Require Import NArith ZArith Arith List Bool Lia ZifyBool ZifyN ZifyNat Eqdep_dec ListDec Permutation.
From Verif Require Import Base Words Spec Trans LoopP Fnv FnvP I32 Brackets.
Import ListNotations.
Open Scope N_scope.

Lemma i32_default debug n Hn : @default_keys (i32_env debug n Hn) 4.
Proof.
  constructor; [reflexivity|reflexivity|]. exists (fun c : i32 => bytes_of 4 (val c)). split.
  - intros c. destruct (bytes_of_ok 4 (val c)) as [H1 H2]. split; [exact H1|]. split; [exact H2|reflexivity].
  - intros c c' H. apply val_inj. apply (bytes_of_inj 4); [apply val_lt|apply val_lt|exact H].
Qed.

Lemma wadd_comm a b : wadd a b = wadd b a.
Proof. unfold wadd. f_equal. apply N.add_comm. Qed.
Lemma wadd_monoid : monoid (wrap 0) wadd.
Proof.
  assert (Hne : 2 ^ 32 <> 0) by discriminate. split; [|split].
  - intros a b c. apply val_inj. unfold wadd, wrap, val. cbn [proj1_sig].
    rewrite N.add_mod_idemp_r, N.add_mod_idemp_l, N.add_assoc by exact Hne. reflexivity.
  - intros a. apply val_inj. unfold wadd, wrap. unfold val at 1. cbn [proj1_sig]. rewrite N.mod_small; [reflexivity|]. exact (val_lt a).
  - intros a. apply val_inj. unfold wadd, wrap. unfold val at 1. cbn [proj1_sig]. rewrite N.mod_small.
    + change (val (exist _ (0 mod 2 ^ 32) (wrap_ok 0))) with 0. apply N.add_0_r.
    + change (val (exist _ (0 mod 2 ^ 32) (wrap_ok 0))) with 0. rewrite N.add_0_r. exact (val_lt a).
Qed.

(** Sums of the numbers themselves, of their sizes, and of their bits. *)
Definition zsum (l : list i32) : Z := fold_right Z.add 0%Z (map sval l).
Definition zsize (l : list i32) : Z := fold_right Z.add 0%Z (map (fun k => Z.abs (sval k)) l).
Definition nsum (l : list i32) : N := fold_right N.add 0 (map val l).
Lemma zsum_app l l' : zsum (l ++ l') = (zsum l + zsum l')%Z.
Proof. unfold zsum. induction l as [|k l IH]; cbn [map fold_right app]; [reflexivity|]. rewrite IH. lia. Qed.
Lemma zsize_app l l' : zsize (l ++ l') = (zsize l + zsize l')%Z.
Proof. unfold zsize. induction l as [|k l IH]; cbn [map fold_right app]; [reflexivity|]. rewrite IH. lia. Qed.
Lemma nsum_app l l' : nsum (l ++ l') = nsum l + nsum l'.
Proof. unfold nsum. induction l as [|k l IH]; cbn [map fold_right app]; [reflexivity|]. rewrite IH. lia. Qed.
Lemma zsum_size l : (Z.abs (zsum l) <= zsize l)%Z.
Proof. unfold zsum, zsize. induction l as [|k l IH]; cbn [map fold_right]; lia. Qed.
Lemma zsum_perm l l' : Permutation l l' -> zsum l = zsum l'.
Proof. unfold zsum. induction 1; cbn [map fold_right]; lia. Qed.
Lemma zsize_perm l l' : Permutation l l' -> zsize l = zsize l'.
Proof. unfold zsize. induction 1; cbn [map fold_right]; lia. Qed.
Lemma nsum_perm l l' : Permutation l l' -> nsum l = nsum l'.
Proof. unfold nsum. induction 1; cbn [map fold_right]; lia. Qed.
Lemma sval_inj a b : sval a = sval b -> a = b.
Proof.
  intros H. apply val_inj. pose proof (val_lt a). pose proof (val_lt b). unfold sval in H.
  destruct (N.ltb_spec (val a) (2 ^ 31)), (N.ltb_spec (val b) (2 ^ 31)); lia.
Qed.
Lemma sval_wadd a b : fits (sval a + sval b) = true -> sval (wadd a b) = (sval a + sval b)%Z.
Proof.
  unfold fits. intros H. apply andb_prop in H. destruct H as [H1 H2]. apply Z.leb_le in H1. apply Z.ltb_lt in H2.
  assert (Hw : val (wadd a b) = (val a + val b) mod 2 ^ 32) by reflexivity.
  pose proof (val_lt a). pose proof (val_lt b). pose proof (N.div_mod (val a + val b) (2 ^ 32)) as Hd. pose proof (N.mod_lt (val a + val b) (2 ^ 32)) as Hm.
  specialize (Hd ltac:(discriminate)). specialize (Hm ltac:(discriminate)).
  assert (Hq : (val a + val b) / 2 ^ 32 <= 1) by (apply N.lt_succ_r, N.div_lt_upper_bound; [discriminate|lia]).
  unfold sval in *. rewrite Hw. destruct (N.ltb_spec (val a) (2 ^ 31)), (N.ltb_spec (val b) (2 ^ 31)), (N.ltb_spec ((val a + val b) mod 2 ^ 32) (2 ^ 31));
    assert ((val a + val b) / 2 ^ 32 = 0 \/ (val a + val b) / 2 ^ 32 = 1) as [Hz|Hz] by lia; rewrite Hz in Hd; lia.
Qed.
(** Debug builds: a sum that is not a panic is exact; there is no panic when the sizes sum up to less than 2 ^ 31. *)
Lemma iadd_exact t x : beval (Some (wrap 0)) (iadd true) Some t = Some x -> sval x = zsum (bleaves t).
Proof.
  revert x. induction t as [|a|t1 IH1 t2 IH2]; intros x; cbn [beval bleaves].
  - intros [= <-]. reflexivity.
  - intros [= <-]. unfold zsum. cbn [map fold_right]. lia.
  - destruct (beval _ _ _ t1) as [y|]; [|discriminate]. destruct (beval _ _ _ t2) as [z|]; [|discriminate]. cbn [iadd andb].
    destruct (fits (sval y + sval z)) eqn:Hf; [|discriminate]. cbn [negb]. intros [= <-].
    rewrite (sval_wadd _ _ Hf), zsum_app, (IH1 y eq_refl), (IH2 z eq_refl). reflexivity.
Qed.
Lemma iadd_fits t : (zsize (bleaves t) < 2 ^ 31)%Z -> exists x, beval (Some (wrap 0)) (iadd true) Some t = Some x.
Proof.
  induction t as [|a|t1 IH1 t2 IH2]; cbn [beval bleaves]; [eauto..|]. rewrite zsize_app. intros H.
  pose proof (zsum_size (bleaves t1)) as B1. pose proof (zsum_size (bleaves t2)) as B2.
  destruct IH1 as [y Hy]; [lia|]. destruct IH2 as [z Hz]; [lia|]. rewrite Hy, Hz. cbn [iadd andb].
  apply iadd_exact in Hy, Hz. destruct (fits (sval y + sval z)) eqn:Hf; cbn [negb]; [eauto|]. exfalso.
  unfold fits in Hf. apply andb_false_iff in Hf. destruct Hf as [Hf|Hf]; [apply Z.leb_gt in Hf|apply Z.ltb_ge in Hf]; lia.
Qed.
(** Release builds: the sum modulo 2 ^ 32. *)
Lemma iadd_wraps t : beval (Some (wrap 0)) (iadd false) Some t = Some (wrap (nsum (bleaves t))).
Proof.
  assert (Hne : 2 ^ 32 <> 0) by discriminate. induction t as [|a|t1 IH1 t2 IH2]; cbn [beval bleaves].
  - reflexivity.
  - f_equal. apply val_inj. unfold nsum. cbn [map fold_right]. rewrite N.add_0_r. unfold wrap. unfold val at 2. cbn [proj1_sig].
    symmetry. apply N.mod_small, val_lt.
  - rewrite IH1, IH2. cbn [iadd andb]. f_equal. apply val_inj. rewrite nsum_app. unfold wadd, wrap, val. cbn [proj1_sig].
    rewrite <- N.add_mod by exact Hne. reflexivity.
Qed.
Lemma i32_nodup_dec (l : list i32) : NoDup l \/ ~ NoDup l.
Proof.
  destruct (ListDec.NoDup_dec (fun x y : i32 => match bool_dec (word_eqb x y) true with left H => left (proj1 (word_eqb_eq x y) H)
    | right H => right (fun e => H (proj2 (word_eqb_eq x y) e)) end) l); auto.
Qed.
