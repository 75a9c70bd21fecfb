(** Facts about sparse arrays: the content of slot [i]. *)
From Coq Require Import NArith Arith List Bool Lia ZifyBool ZifyN ZifyNat Permutation.
From Verif Require Import Base Words WordsP Bia.
Import ListNotations.
Open Scope N_scope.

(** What slot [i] holds. *)
Definition getv {A} (bits : N) (values : list A) (i : N) : option A :=
  if N.testbit bits i then nthN values (rank bits i) else None.
Definition get {A} (b : bia A) (i : N) : option A := getv (bbits b) (bvalues b) i.

Definition okv {A} (n : N) (bits : N) (values : list A) : Prop :=
  bits < 2 ^ n /\ count_ones bits = lenN values.
Definition bia_ok {A} (w : width) (b : bia A) : Prop := okv (max_ones w) (bbits b) (bvalues b).

Definition olist {A} (o : option A) : list A := match o with Some a => [a] | None => [] end.

Lemma lenN_nil {A} : lenN (@nil A) = 0.
Proof. reflexivity. Qed.
Lemma lenN_cons {A} (a : A) l : lenN (a :: l) = 1 + lenN l.
Proof. unfold lenN. cbn [length]. lia. Qed.
Lemma lenN_app {A} (l l' : list A) : lenN (l ++ l') = lenN l + lenN l'.
Proof. unfold lenN. rewrite app_length. lia. Qed.
Lemma lenN_map {A B} (f : A -> B) l : lenN (map f l) = lenN l.
Proof. unfold lenN. rewrite map_length. reflexivity. Qed.
Lemma lenN_0 {A} (l : list A) : lenN l = 0 -> l = [].
Proof. destruct l; [reflexivity|]. rewrite lenN_cons. lia. Qed.

Lemma nthN_some_lt {A} (l : list A) i a : nthN l i = Some a -> i < lenN l.
Proof.
  unfold nthN, lenN. intros H. assert (nth_error l (N.to_nat i) <> None) by congruence.
  apply nth_error_Some in H0. lia.
Qed.
Lemma nthN_lt_some {A} (l : list A) i : i < lenN l -> exists a, nthN l i = Some a.
Proof.
  unfold nthN, lenN. intros H. destruct (nth_error l (N.to_nat i)) eqn:E; [eauto|].
  apply nth_error_None in E. lia.
Qed.
Lemma nthN_ge {A} (l : list A) i : lenN l <= i -> nthN l i = None.
Proof. unfold nthN, lenN. intros. apply nth_error_None. lia. Qed.
Lemma nthN_app1 {A} (l l' : list A) i : i < lenN l -> nthN (l ++ l') i = nthN l i.
Proof. unfold nthN, lenN. intros. apply nth_error_app1. lia. Qed.
Lemma nthN_app2 {A} (l l' : list A) i : lenN l <= i -> nthN (l ++ l') i = nthN l' (i - lenN l).
Proof. unfold nthN, lenN. intros. rewrite nth_error_app2 by lia. f_equal. lia. Qed.
Lemma nthN_cons0 {A} (a : A) l : nthN (a :: l) 0 = Some a.
Proof. reflexivity. Qed.
Lemma nthN_map {A B} (f : A -> B) l i : nthN (map f l) i = option_map f (nthN l i).
Proof. unfold nthN. rewrite nth_error_map. reflexivity. Qed.

Lemma okv_some {A} n bits (values : list A) i :
  okv n bits values -> N.testbit bits i = true -> exists a, getv bits values i = Some a.
Proof.
  intros [H1 H2] Ht. unfold getv. rewrite Ht. apply nthN_lt_some. rewrite <- H2.
  apply rank_lt_count. assumption.
Qed.

Lemma getv_testbit {A} bits (values : list A) i a : getv bits values i = Some a -> N.testbit bits i = true.
Proof. unfold getv. destruct (N.testbit bits i); [reflexivity|discriminate]. Qed.

Lemma okv_none {A} n bits (values : list A) i :
  okv n bits values -> getv bits values i = None -> N.testbit bits i = false.
Proof.
  intros H Hg. destruct (N.testbit bits i) eqn:Ht; [|reflexivity].
  destruct (okv_some n bits values i H Ht). congruence.
Qed.

Lemma okv_lt {A} n bits (values : list A) i a :
  okv n bits values -> getv bits values i = Some a -> i < n.
Proof. intros [H _] Hg. eapply testbit_lt; [exact H|]. eapply getv_testbit; eassumption. Qed.

Lemma get_in {A} bits (values : list A) i a : getv bits values i = Some a -> In a values.
Proof.
  unfold getv. destruct (N.testbit bits i); [|discriminate]. unfold nthN. apply nth_error_In.
Qed.

(** * Reading *)

Lemma bat_get {A} w (b : bia A) i : bia_ok w b ->
  bat b (2 ^ i) = match get b i with Some v => Ok v | None => Err BNotFound end.
Proof.
  intros H. unfold bat, get, getv. rewrite bit_index_pow2. destruct (N.testbit (bbits b) i) eqn:Ht; [|reflexivity].
  destruct (okv_some _ _ _ i H Ht) as [a Ha]. unfold getv in Ha. rewrite Ht in Ha. rewrite Ha. reflexivity.
Qed.

Lemma bat_bit_index_get {A} w (b : bia A) i : bia_ok w b -> i < max_ones w ->
  bat_bit_index w b i = Ret (match get b i with Some v => Ok v | None => Err BNotFound end).
Proof.
  intros H Hi. unfold bat_bit_index, get, getv. rewrite nth_bit_ok by assumption.
  rewrite bit_index_pow2. destruct (N.testbit (bbits b) i) eqn:Ht; [|reflexivity].
  destruct (okv_some _ _ _ i H Ht) as [a Ha]. unfold getv in Ha. rewrite Ht in Ha. rewrite Ha. reflexivity.
Qed.

Lemma get_map {A B} (f : A -> B) bits values x i :
  get (BIA bits (map f values) x) i = option_map f (getv bits values i).
Proof. unfold get, getv. cbn. destruct (N.testbit bits i); [|reflexivity]. apply nthN_map. Qed.

Lemma bat_map {A B} (f : A -> B) bits values x bit :
  bat (BIA bits (map f values) x) bit =
  match bat (BIA bits values x) bit with Ok a => Ok (f a) | Err e => Err e end.
Proof.
  unfold bat. cbn. destruct (bit_index bits bit); [|reflexivity].
  rewrite nthN_map. destruct (nthN values a); reflexivity.
Qed.

Lemma bat_bit_index_map {A B} (f : A -> B) w bits values x i :
  bat_bit_index w (BIA bits (map f values) x) i =
  let* r := bat_bit_index w (BIA bits values x) i in
  Ret (match r with Ok a => Ok (f a) | Err e => Err e end).
Proof.
  unfold bat_bit_index. cbn. destruct (nth_bit w i); [|reflexivity].
  destruct (bit_index bits a); [|reflexivity].
  rewrite nthN_map. destruct (nthN values a0); reflexivity.
Qed.

(** The child at an index, with something computed from it. *)
Lemma bat_bit_index_slot {A B} (f : A -> B) w bits values x i : okv (max_ones w) bits values -> i < max_ones w ->
  bat_bit_index w (BIA bits (map f values) x) i =
  Ret (match getv bits values i with Some a => Ok (f a) | None => Err BNotFound end).
Proof.
  intros Hok Hi. rewrite bat_bit_index_map. rewrite bat_bit_index_get by assumption. unfold get. cbn.
  destruct (getv bits values i); reflexivity.
Qed.

(** * The values are the slots in order *)

Lemma range_nil : forall a, range a a = [].
Proof. intros. unfold range. rewrite N.sub_diag. reflexivity. Qed.
Lemma range_snoc : forall a b, a <= b -> range a (N.succ b) = range a b ++ [b].
Proof.
  intros. unfold range. replace (N.to_nat (N.succ b - a)) with (S (N.to_nat (b - a))) by lia.
  rewrite seq_S, map_app. cbn [map]. do 2 f_equal. lia.
Qed.
Lemma range_in : forall a b i, In i (range a b) <-> a <= i < b.
Proof.
  intros. unfold range. rewrite in_map_iff. split.
  - intros (x & <- & H). apply in_seq in H. lia.
  - intros H. exists (N.to_nat i). split; [lia|]. apply in_seq. lia.
Qed.
Lemma range_app : forall a b c, a <= b -> b <= c -> range a c = range a b ++ range b c.
Proof.
  intros. unfold range. rewrite <- map_app. f_equal.
  replace (N.to_nat (c - a)) with (N.to_nat (b - a) + N.to_nat (c - b))%nat by lia.
  rewrite seq_app. do 2 f_equal. lia.
Qed.
Lemma range_cons : forall a b, a < b -> range a b = a :: range (N.succ a) b.
Proof.
  intros. rewrite (range_app a (N.succ a) b) by lia.
  rewrite (range_snoc a a) by lia. rewrite range_nil. reflexivity.
Qed.
Lemma range_nodup : forall a b, NoDup (range a b).
Proof.
  intros. unfold range. apply FinFun.Injective_map_NoDup; [|apply seq_NoDup].
  intros x y H. lia.
Qed.

Definition slots {A} (n : N) (f : N -> option A) : list A := flat_map (fun i => olist (f i)) (range 0 n).

Lemma firstn_slots {A} bits (values : list A) n :
  count_ones bits = lenN values ->
  firstn (N.to_nat (rank bits n)) values = slots n (getv bits values).
Proof.
  intros Hc. unfold slots. induction n using N.peano_ind.
  - rewrite rank_0, range_nil. reflexivity.
  - rewrite rank_succ, range_snoc by lia. rewrite flat_map_app. rewrite <- IHn.
    cbn [flat_map]. rewrite app_nil_r. unfold getv. destruct (N.testbit bits n) eqn:Ht; cbn [N.b2n olist].
    + assert (HL : rank bits n < lenN values) by (rewrite <- Hc; apply rank_lt_count; assumption).
      destruct (nthN_lt_some values _ HL) as [a Ha]. rewrite Ha. cbn [olist].
      replace (N.to_nat (rank bits n + 1)) with (S (N.to_nat (rank bits n))) by lia.
      unfold nthN in Ha. apply nth_error_split in Ha. destruct Ha as (l1 & l2 & -> & <-).
      rewrite firstn_app. replace (S (length l1) - length l1)%nat with 1%nat by lia.
      rewrite firstn_all2 by lia. cbn [firstn].
      rewrite firstn_app, Nat.sub_diag, firstn_all, app_nil_r. reflexivity.
    + rewrite N.add_0_r, app_nil_r. reflexivity.
Qed.

Lemma values_slots {A} n bits (values : list A) : okv n bits values -> values = slots n (getv bits values).
Proof.
  intros [H1 H2]. rewrite <- firstn_slots by assumption. rewrite rank_full by assumption.
  rewrite H2. unfold lenN. rewrite Nat2N.id, firstn_all. reflexivity.
Qed.

Lemma in_values_get {A} n bits (values : list A) a :
  okv n bits values -> In a values -> exists i, i < n /\ getv bits values i = Some a.
Proof.
  intros H Hin. rewrite (values_slots _ _ _ H) in Hin. unfold slots in Hin.
  apply in_flat_map in Hin. destruct Hin as (i & Hi & Ha). apply range_in in Hi.
  exists i. split; [lia|]. destruct (getv bits values i); cbn in Ha; [|tauto].
  destruct Ha as [->|[]]. reflexivity.
Qed.

(** * Building *)

Lemma rank_lor : forall a b i, N.land a b = 0 -> rank (N.lor a b) i = rank a i + rank b i.
Proof.
  intros. unfold rank. rewrite N.land_lor_distr_l. apply count_ones_lor.
  apply N.bits_inj. intros j. rewrite !N.land_spec, N.bits_0.
  assert (Hj : N.testbit (N.land a b) j = false) by (rewrite H; apply N.bits_0).
  rewrite N.land_spec in Hj.
  destruct (N.testbit a j), (N.testbit b j), (N.testbit (2 ^ i - 1) j); cbn in *; congruence.
Qed.

Lemma rank_pow2 : forall i j, rank (2 ^ i) j = if i <? j then 1 else 0.
Proof.
  intros i j. induction j using N.peano_ind.
  - rewrite rank_0. destruct (N.ltb_spec i 0); lia.
  - rewrite rank_succ, IHj. rewrite N.pow2_bits_eqb.
    destruct (N.ltb_spec i j), (N.ltb_spec i (N.succ j)), (N.eqb_spec i j); cbn [N.b2n]; lia.
Qed.

Lemma rank_lor_pow2 : forall a i j, N.testbit a i = false ->
  rank (N.lor a (2 ^ i)) j = rank a j + if i <? j then 1 else 0.
Proof.
  intros. rewrite rank_lor, rank_pow2. reflexivity.
  apply N.eqb_eq. rewrite land_pow2_eqb, H. reflexivity.
Qed.

Lemma rank_lxor_pow2 : forall a i j, N.testbit a i = true ->
  rank (N.lxor a (2 ^ i)) j + (if i <? j then 1 else 0) = rank a j.
Proof.
  intros.
  assert (HH : a = N.lor (N.lxor a (2 ^ i)) (2 ^ i)).
  { apply N.bits_inj. intros k. rewrite testbit_lor_pow2, testbit_lxor_pow2.
    destruct (N.eqb_spec i k) as [->|]. rewrite H. reflexivity.
    rewrite xorb_false_r, orb_false_r. reflexivity. }
  rewrite HH at 2. rewrite rank_lor_pow2. reflexivity.
  rewrite testbit_lxor_pow2, H, N.eqb_refl. reflexivity.
Qed.

Lemma lor_pow2_lt : forall a i n, a < 2 ^ n -> i < n -> N.lor a (2 ^ i) < 2 ^ n.
Proof.
  intros. apply bits_lt. intros j Hj. rewrite testbit_lor_pow2.
  destruct (N.eqb_spec i j); [lia|]. rewrite orb_false_r.
  destruct (N.testbit a j) eqn:Ht; [|reflexivity].
  pose proof (testbit_lt a n j H Ht). lia.
Qed.

Lemma lxor_pow2_lt : forall a i n, a < 2 ^ n -> i < n -> N.lxor a (2 ^ i) < 2 ^ n.
Proof.
  intros. apply bits_lt. intros j Hj. rewrite testbit_lxor_pow2.
  destruct (N.eqb_spec i j); [lia|]. rewrite xorb_false_r.
  destruct (N.testbit a j) eqn:Ht; [|reflexivity].
  pose proof (testbit_lt a n j H Ht). lia.
Qed.

Lemma okv_nil {A} n : okv n 0 (@nil A).
Proof. split; [|reflexivity]. pose proof (pow2_ne0 n). lia. Qed.

Lemma getv_nil {A} i : getv 0 (@nil A) i = None.
Proof. unfold getv. rewrite N.bits_0. reflexivity. Qed.

(** Appending a value at an index above all set bits. *)
Lemma okv_push {A} i bits (values : list A) a :
  okv i bits values -> okv (N.succ i) (N.lor bits (2 ^ i)) (values ++ [a]).
Proof.
  intros [H1 H2]. assert (Ht : N.testbit bits i = false).
  { destruct (N.testbit bits i) eqn:Ht; [|reflexivity]. pose proof (testbit_lt bits i i H1 Ht). lia. }
  split.
  - apply lor_pow2_lt; [|lia]. eapply N.lt_le_trans; [exact H1|]. apply N.pow_le_mono_r; lia.
  - rewrite count_ones_lor_pow2 by assumption. rewrite lenN_app, H2. reflexivity.
Qed.

Lemma okv_testbit_ge {A} n bits (values : list A) i : okv n bits values -> n <= i -> N.testbit bits i = false.
Proof.
  intros [H1 _] Hi. destruct (N.testbit bits i) eqn:Ht; [|reflexivity].
  pose proof (testbit_lt bits n i H1 Ht). lia.
Qed.

Lemma getv_push {A} i bits (values : list A) a j :
  okv i bits values ->
  getv (N.lor bits (2 ^ i)) (values ++ [a]) j = if i =? j then Some a else getv bits values j.
Proof.
  intros H. assert (Ht := okv_testbit_ge _ _ _ i H ltac:(lia)).
  unfold getv. rewrite testbit_lor_pow2, rank_lor_pow2 by assumption.
  destruct (N.eqb_spec i j) as [->|Hn].
  - rewrite orb_true_r, N.ltb_irrefl, N.add_0_r.
    rewrite rank_full by apply H. destruct H as [_ ->].
    rewrite nthN_app2 by lia. rewrite N.sub_diag. reflexivity.
  - rewrite orb_false_r. destruct (N.testbit bits j) eqn:Hj; [|reflexivity].
    assert (j < i) by (eapply testbit_lt; [apply H|assumption]).
    destruct (N.ltb_spec i j); [lia|]. rewrite N.add_0_r.
    apply nthN_app1. destruct H as [_ <-]. apply rank_lt_count. assumption.
Qed.

Lemma okv_mono {A} n m bits (values : list A) : n <= m -> okv n bits values -> okv m bits values.
Proof.
  intros Hnm [H1 H2]. split; [|assumption]. eapply N.lt_le_trans; [exact H1|]. apply N.pow_le_mono_r; lia.
Qed.

(** Joining two arrays whose bits lie below resp. from [m] on. *)
Lemma disjoint_land {A B} m bl (vl : list A) br (vr : list B) :
  okv m bl vl -> (forall i, i < m -> N.testbit br i = false) -> N.land bl br = 0.
Proof.
  intros Hl Hr. apply N.bits_inj. intros j. rewrite N.land_spec, N.bits_0.
  destruct (N.lt_ge_cases j m).
  - rewrite Hr by assumption. apply andb_false_r.
  - rewrite (okv_testbit_ge _ _ _ j Hl) by assumption. reflexivity.
Qed.

Lemma okv_merge {A} m n bl (vl : list A) br (vr : list A) :
  m <= n -> okv m bl vl -> okv n br vr -> (forall i, i < m -> N.testbit br i = false) ->
  okv n (N.lor bl br) (vl ++ vr).
Proof.
  intros Hmn Hl Hr Hlow. split.
  - apply bits_lt. intros j Hj. rewrite N.lor_spec.
    rewrite (okv_testbit_ge _ _ _ j Hl) by lia. rewrite (okv_testbit_ge _ _ _ j Hr) by lia. reflexivity.
  - rewrite count_ones_lor by (eapply disjoint_land; eassumption).
    rewrite lenN_app. destruct Hl as [_ ->]. destruct Hr as [_ ->]. reflexivity.
Qed.

Lemma getv_merge {A} m n bl (vl : list A) br (vr : list A) j :
  m <= n -> okv m bl vl -> okv n br vr -> (forall i, i < m -> N.testbit br i = false) ->
  getv (N.lor bl br) (vl ++ vr) j = if j <? m then getv bl vl j else getv br vr j.
Proof.
  intros Hmn Hl Hr Hlow. unfold getv. rewrite N.lor_spec, rank_lor by (eapply disjoint_land; eassumption).
  destruct (N.ltb_spec j m).
  - rewrite Hlow by assumption. rewrite orb_false_r.
    replace (rank br j) with 0.
    2:{ rewrite (rank_ext br 0). unfold rank. rewrite N.land_0_l. reflexivity.
        intros. rewrite N.bits_0. apply Hlow. lia. }
    rewrite N.add_0_r. destruct (N.testbit bl j) eqn:Ht; [|reflexivity].
    apply nthN_app1. destruct Hl as [_ <-]. apply rank_lt_count. assumption.
  - rewrite (okv_testbit_ge _ _ _ j Hl) by lia. cbn [orb].
    destruct (N.testbit br j) eqn:Ht; [|reflexivity].
    rewrite rank_full.
    2:{ eapply N.lt_le_trans; [apply Hl|]. apply N.pow_le_mono_r; lia. }
    destruct Hl as [_ ->]. rewrite nthN_app2 by lia. f_equal. lia.
Qed.

Lemma new_bia_ok {A} w bits (values : list A) x : okv (max_ones w) bits values ->
  new_bia bits values x = Ok (BIA bits values x).
Proof.
  intros [H1 H2]. unfold new_bia. rewrite <- H2, N.eqb_refl. cbn [negb].
  pose proof (count_ones_lt _ _ H1). pose proof (max_ones_le w).
  destruct (N.leb_spec (count_ones bits) 128); [reflexivity|lia].
Qed.

(** * Insertion, update and removal of one slot *)

Lemma split_at {A} (l : list A) r : r <= lenN l ->
  exists l1 l2, l = l1 ++ l2 /\ lenN l1 = r /\ firstn (N.to_nat r) l = l1 /\ skipn (N.to_nat r) l = l2.
Proof.
  intros H. exists (firstn (N.to_nat r) l), (skipn (N.to_nat r) l).
  rewrite firstn_skipn. repeat split; try reflexivity.
  unfold lenN in *. rewrite firstn_length. lia.
Qed.

Lemma split_at_elt {A} (l : list A) r a : nthN l r = Some a ->
  exists l1 l2, l = l1 ++ a :: l2 /\ lenN l1 = r /\ firstn (N.to_nat r) l = l1 /\ skipn (S (N.to_nat r)) l = l2.
Proof.
  intros H. unfold nthN in H. apply nth_error_split in H. destruct H as (l1 & l2 & -> & Hl).
  exists l1, l2. split; [reflexivity|]. split; [unfold lenN; lia|]. rewrite <- Hl. split.
  - rewrite firstn_app, Nat.sub_diag, firstn_all. cbn. apply app_nil_r.
  - rewrite skipn_app. rewrite skipn_all2 by lia. replace (S (length l1) - length l1)%nat with 1%nat by lia. reflexivity.
Qed.

Lemma binserted_ok {A} w (b : bia A) i v x :
  bia_ok w b -> i < max_ones w -> get b i = None ->
  exists b', binserted b (2 ^ i) v x = Ok b' /\ bia_ok w b' /\ bextra b' = x /\
    forall j, get b' j = if i =? j then Some v else get b j.
Proof.
  intros Hok Hi Hg. unfold get in *. assert (Ht := okv_none _ _ _ _ Hok Hg).
  unfold binserted. rewrite bit_insert_pow2, Ht, bit_index_pow2, testbit_lor_pow2, N.eqb_refl, orb_true_r.
  rewrite rank_lor_pow2 by assumption. rewrite N.ltb_irrefl, N.add_0_r.
  destruct Hok as [H1 H2].
  assert (Hr : rank (bbits b) i <= lenN (bvalues b)) by (rewrite <- H2; apply rank_le_count).
  unfold values_insert. destruct (split_at _ _ Hr) as (l1 & l2 & Hv & Hl & -> & ->).
  assert (Hok' : okv (max_ones w) (N.lor (bbits b) (2 ^ i)) (l1 ++ v :: l2)).
  { split; [apply lor_pow2_lt; assumption|]. rewrite count_ones_lor_pow2 by assumption.
    rewrite H2, Hv, !lenN_app, lenN_cons. lia. }
  rewrite (new_bia_ok w) by assumption. eexists; split; [reflexivity|]. split; [exact Hok'|].
  split; [reflexivity|]. intros j. cbn [bbits bvalues]. unfold getv.
  rewrite testbit_lor_pow2, rank_lor_pow2 by assumption.
  destruct (N.eqb_spec i j) as [->|Hn].
  - rewrite orb_true_r, N.ltb_irrefl, N.add_0_r. rewrite nthN_app2 by lia. rewrite Hl, N.sub_diag. reflexivity.
  - rewrite orb_false_r. destruct (N.testbit (bbits b) j) eqn:Hj; [|reflexivity].
    rewrite Hv. destruct (N.ltb_spec i j).
    + assert (rank (bbits b) i <= rank (bbits b) j) by (apply rank_mono; lia).
      rewrite !nthN_app2 by lia.
      replace (rank (bbits b) j + 1 - lenN l1) with (N.succ (rank (bbits b) j - lenN l1)) by lia.
      unfold nthN. rewrite N2Nat.inj_succ. reflexivity.
    + assert (rank (bbits b) (N.succ j) <= rank (bbits b) i) by (apply rank_mono; lia).
      rewrite rank_succ, Hj in H0. cbn [N.b2n] in H0.
      rewrite N.add_0_r. rewrite !nthN_app1 by lia. reflexivity.
Qed.

Lemma bupdated_ok {A} w (b : bia A) i v v0 x :
  bia_ok w b -> get b i = Some v0 ->
  exists b', bupdated b (2 ^ i) v x = Ok b' /\ bia_ok w b' /\ bextra b' = x /\
    forall j, get b' j = if i =? j then Some v else get b j.
Proof.
  intros Hok Hg. unfold get in *. assert (Ht := getv_testbit _ _ _ _ Hg).
  unfold bupdated. rewrite bit_index_pow2, Ht. unfold getv in Hg. rewrite Ht in Hg.
  destruct Hok as [H1 H2].
  unfold values_update. destruct (split_at_elt _ _ _ Hg) as (l1 & l2 & Hv & Hl & -> & ->).
  assert (Hok' : okv (max_ones w) (bbits b) (l1 ++ v :: l2)).
  { split; [assumption|]. rewrite H2, Hv, !lenN_app, !lenN_cons. lia. }
  rewrite (new_bia_ok w) by assumption. eexists; split; [reflexivity|]. split; [exact Hok'|].
  split; [reflexivity|]. intros j. cbn [bbits bvalues]. unfold getv.
  destruct (N.eqb_spec i j) as [->|Hn].
  - rewrite Ht. rewrite nthN_app2 by lia. rewrite Hl, N.sub_diag. reflexivity.
  - destruct (N.testbit (bbits b) j) eqn:Hj; [|reflexivity].
    rewrite Hv. destruct (N.lt_ge_cases i j).
    + assert (rank (bbits b) (N.succ i) <= rank (bbits b) j) by (apply rank_mono; lia).
      rewrite rank_succ, Ht in H0. cbn [N.b2n] in H0.
      rewrite !nthN_app2 by lia.
      replace (rank (bbits b) j - lenN l1) with (N.succ (rank (bbits b) j - lenN l1 - 1)) by lia.
      unfold nthN. rewrite N2Nat.inj_succ. reflexivity.
    + assert (rank (bbits b) (N.succ j) <= rank (bbits b) i) by (apply rank_mono; lia).
      rewrite rank_succ, Hj in H0. cbn [N.b2n] in H0.
      rewrite !nthN_app1 by lia. reflexivity.
Qed.

Lemma bremoved_ok {A} w (b : bia A) i v0 x :
  bia_ok w b -> get b i = Some v0 ->
  exists b', bremoved b (2 ^ i) x = Ok b' /\ bia_ok w b' /\ bextra b' = x /\
    forall j, get b' j = if i =? j then None else get b j.
Proof.
  intros Hok Hg. assert (Hi := okv_lt _ _ _ _ _ Hok Hg). unfold get in *. assert (Ht := getv_testbit _ _ _ _ Hg).
  unfold bremoved. rewrite bit_remove_pow2, bit_index_pow2, Ht. unfold getv in Hg. rewrite Ht in Hg.
  destruct Hok as [H1 H2].
  unfold values_remove. destruct (split_at_elt _ _ _ Hg) as (l1 & l2 & Hv & Hl & -> & ->).
  pose proof (count_ones_lxor_pow2 _ _ Ht) as Hc.
  assert (Hok' : okv (max_ones w) (N.lxor (bbits b) (2 ^ i)) (l1 ++ l2)).
  { split; [apply lxor_pow2_lt; assumption|].
    rewrite Hv, lenN_app, lenN_cons in H2. rewrite lenN_app. lia. }
  rewrite (new_bia_ok w) by assumption. eexists; split; [reflexivity|]. split; [exact Hok'|].
  split; [reflexivity|]. intros j. cbn [bbits bvalues]. unfold getv.
  rewrite testbit_lxor_pow2. pose proof (rank_lxor_pow2 _ _ j Ht) as Hrj.
  destruct (N.eqb_spec i j) as [->|Hn].
  - rewrite Ht. reflexivity.
  - rewrite xorb_false_r. destruct (N.testbit (bbits b) j) eqn:Hj; [|reflexivity].
    rewrite Hv. destruct (N.ltb_spec i j).
    + assert (rank (bbits b) (N.succ i) <= rank (bbits b) j) by (apply rank_mono; lia).
      rewrite rank_succ, Ht in H0. cbn [N.b2n] in H0.
      rewrite !nthN_app2 by lia.
      replace (rank (bbits b) j - lenN l1) with (N.succ (rank (N.lxor (bbits b) (2 ^ i)) j - lenN l1)) by lia.
      unfold nthN. rewrite N2Nat.inj_succ. reflexivity.
    + assert (rank (bbits b) (N.succ j) <= rank (bbits b) i) by (apply rank_mono; lia).
      rewrite rank_succ, Hj in H0. cbn [N.b2n] in H0.
      rewrite N.add_0_r in Hrj. rewrite Hrj. rewrite !nthN_app1 by lia. reflexivity.
Qed.

(** * Slots as lists *)

Lemma flat_map_ext_in {A B} (f g : A -> list B) l :
  (forall a, In a l -> f a = g a) -> flat_map f l = flat_map g l.
Proof.
  induction l; cbn; intros; [reflexivity|]. rewrite H by auto. rewrite IHl by auto. reflexivity.
Qed.

Lemma flat_map_upd_perm {B} (f g : N -> list B) n i :
  i < n -> (forall j, j < n -> i <> j -> f j = g j) ->
  exists rest, Permutation (flat_map f (range 0 n)) (f i ++ rest) /\
               Permutation (flat_map g (range 0 n)) (g i ++ rest).
Proof.
  intros Hi Hfg. rewrite (range_app 0 i n) by lia. rewrite (range_cons i n) by lia.
  rewrite !flat_map_app. cbn [flat_map].
  exists (flat_map f (range 0 i) ++ flat_map f (range (N.succ i) n)).
  rewrite (flat_map_ext_in g f (range 0 i)), (flat_map_ext_in g f (range (N.succ i) n)).
  - split; apply Permutation_app_swap_app.
  - intros a Ha. apply range_in in Ha. symmetry. apply Hfg; lia.
  - intros a Ha. apply range_in in Ha. symmetry. apply Hfg; lia.
Qed.

Lemma map_slots {A B} (f : A -> B) n g : map f (slots n g) = slots n (fun i => option_map f (g i)).
Proof.
  unfold slots. rewrite flat_map_concat_map, concat_map, map_map, <- flat_map_concat_map.
  apply flat_map_ext_in. intros. destruct (g a); reflexivity.
Qed.

Lemma flat_map_slots {A B} (f : A -> list B) n g :
  flat_map f (slots n g) = flat_map (fun i => match g i with Some a => f a | None => [] end) (range 0 n).
Proof.
  unfold slots. induction (range 0 n); [reflexivity|]. cbn [flat_map]. rewrite flat_map_app, IHl.
  f_equal. destruct (g a); cbn; [apply app_nil_r|reflexivity].
Qed.
