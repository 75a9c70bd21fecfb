(** The construction loop writes every slot once, reads nothing unwritten and
    never panics, and gives the arrays of Bia.v. *)
From Coq Require Import NArith Arith List Bool Lia ZifyBool ZifyN ZifyNat.
From Verif Require Import Base Words WordsP WordLaws Bia BiaP Node WeakP Built BuiltP Raw.
Import ListNotations.
Open Scope N_scope.

Section RawP.
Context {A : Type}.
Implicit Types (l : list A) (v : vals A) (b : bia A).

(** From slot [k] on, the source gives the elements of [l]. *)
Definition shows v (k : N) l : Prop :=
  match v with
  | VVec l0 => l = l0
  | VInsert l0 i o => i <= lenN l0 /\ exists a, l = values_insert l0 i a /\ (k <= i -> o = Some a)
  | VUpdate l0 i o => i < lenN l0 /\ exists a, l = values_update l0 i a /\ (k <= i -> o = Some a)
  | VRemove l0 i => i < lenN l0 /\ l = values_remove l0 i
  end.

Lemma lenN_insert l i a : lenN (values_insert l i a) = lenN l + 1.
Proof.
  unfold values_insert, lenN. rewrite app_length. cbn [length].
  pose proof (f_equal (@length A) (firstn_skipn (N.to_nat i) l)) as H. rewrite app_length in H. lia.
Qed.

Lemma lenN_update l i a : i < lenN l -> lenN (values_update l i a) = lenN l.
Proof.
  unfold values_update, lenN. intros H. rewrite app_length. cbn [length].
  rewrite firstn_length, skipn_length. lia.
Qed.

Lemma lenN_remove l i : i < lenN l -> lenN (values_remove l i) + 1 = lenN l.
Proof.
  unfold values_remove, lenN. intros H. rewrite app_length, firstn_length, skipn_length. lia.
Qed.

Lemma nth_error_skipn (n i : nat) l : nth_error (skipn n l) i = nth_error l (n + i).
Proof.
  revert l. induction n; intros l; [reflexivity|]. destruct l; [destruct i; reflexivity|]. apply IHn.
Qed.

Lemma nth_error_firstn (n i : nat) l : (i < n)%nat -> nth_error (firstn n l) i = nth_error l i.
Proof.
  revert n l. induction i; intros [|n] [|x l] H; try lia; try reflexivity. cbn. apply IHi. lia.
Qed.

Lemma nthN_insert l i a k : i <= lenN l ->
  nthN (values_insert l i a) k =
  match k ?= i with Lt => nthN l k | Eq => Some a | Gt => nthN l (k - 1) end.
Proof.
  intros H. unfold values_insert, lenN, nthN in *.
  assert (Hl : length (firstn (N.to_nat i) l) = N.to_nat i) by (rewrite firstn_length; lia).
  destruct (N.compare_spec k i) as [->|Hk|Hk].
  - rewrite nth_error_app2, Hl, Nat.sub_diag by lia. reflexivity.
  - rewrite nth_error_app1 by lia. apply nth_error_firstn. lia.
  - rewrite nth_error_app2, Hl by lia.
    replace (N.to_nat k - N.to_nat i)%nat with (S (N.to_nat k - N.to_nat i - 1)) by lia.
    cbn [nth_error]. rewrite nth_error_skipn. f_equal. lia.
Qed.

Lemma nthN_update l i a k : i < lenN l ->
  nthN (values_update l i a) k = match k ?= i with Eq => Some a | _ => nthN l k end.
Proof.
  intros H. unfold values_update, lenN, nthN in *.
  assert (Hl : length (firstn (N.to_nat i) l) = N.to_nat i) by (rewrite firstn_length; lia).
  destruct (N.compare_spec k i) as [->|Hk|Hk].
  - rewrite nth_error_app2, Hl, Nat.sub_diag by lia. reflexivity.
  - rewrite nth_error_app1 by lia. apply nth_error_firstn. lia.
  - rewrite nth_error_app2, Hl by lia.
    replace (N.to_nat k - N.to_nat i)%nat with (S (N.to_nat k - N.to_nat i - 1)) by lia.
    cbn [nth_error]. rewrite nth_error_skipn. f_equal. lia.
Qed.

Lemma nthN_remove l i k : i < lenN l ->
  nthN (values_remove l i) k = match k ?= i with Lt => nthN l k | _ => nthN l (k + 1) end.
Proof.
  intros H. unfold values_remove, lenN, nthN in *.
  assert (Hl : length (firstn (N.to_nat i) l) = N.to_nat i) by (rewrite firstn_length; lia).
  destruct (N.compare_spec k i) as [->|Hk|Hk].
  - rewrite nth_error_app2, Hl by lia. rewrite nth_error_skipn. f_equal. lia.
  - rewrite nth_error_app1 by lia. apply nth_error_firstn. lia.
  - rewrite nth_error_app2, Hl by lia. rewrite nth_error_skipn. f_equal. lia.
Qed.

Lemma shows_at v k l : shows v k l -> k < lenN l ->
  exists a v', v_at v k = Some (a, v') /\ nthN l k = Some a /\ shows v' (k + 1) l.
Proof.
  intros Hs Hk. destruct (nthN_lt_some _ _ Hk) as [a Ha]. exists a.
  destruct v as [l0|l0 i o|l0 i o|l0 i]; cbn [shows v_at] in *.
  - subst l0. rewrite Ha. eexists; repeat split.
  - destruct Hs as (Hi & a0 & Hl & Ho). rewrite Hl, nthN_insert in Ha by assumption.
    destruct (N.compare_spec k i) as [->|Hc|Hc].
    + rewrite (Ho (N.le_refl _)). injection Ha as ->. eexists; split; [reflexivity|]. split.
      * rewrite Hl, nthN_insert, N.compare_refl by assumption. reflexivity.
      * split; [assumption|]. exists a. split; [assumption|]. lia.
    + rewrite Ha. eexists; split; [reflexivity|]. split.
      * rewrite Hl, nthN_insert by assumption. rewrite (proj2 (N.compare_lt_iff k i) Hc). assumption.
      * split; [assumption|]. exists a0. split; [assumption|]. intros. apply Ho. lia.
    + rewrite Ha. eexists; split; [reflexivity|]. split.
      * rewrite Hl, nthN_insert by assumption. rewrite (proj2 (N.compare_gt_iff k i) Hc). assumption.
      * split; [assumption|]. exists a0. split; [assumption|]. lia.
  - destruct Hs as (Hi & a0 & Hl & Ho). pose proof Ha as Ha'. rewrite Hl, nthN_update in Ha by assumption.
    destruct (N.compare_spec k i) as [->|Hc|Hc].
    + rewrite (Ho (N.le_refl _)). injection Ha as ->. eexists; split; [reflexivity|]. split; [assumption|].
      split; [assumption|]. exists a. split; [assumption|]. lia.
    + rewrite Ha. eexists; split; [reflexivity|]. split; [assumption|].
      split; [assumption|]. exists a0. split; [assumption|]. intros. apply Ho. lia.
    + rewrite Ha. eexists; split; [reflexivity|]. split; [assumption|].
      split; [assumption|]. exists a0. split; [assumption|]. lia.
  - destruct Hs as (Hi & Hl). pose proof Ha as Ha'. rewrite Hl, nthN_remove in Ha by assumption.
    destruct (N.compare_spec k i) as [->|Hc|Hc]; rewrite Ha; eexists; (split; [reflexivity|]); (split; [assumption|]); split; assumption.
Qed.

Lemma fill_shows v l1 l2 : shows v (lenN l1) (l1 ++ l2) ->
  fill (range (lenN l1) (lenN (l1 ++ l2))) v (map Some l1 ++ repeat None (length l2)) =
  Some (map Some (l1 ++ l2)).
Proof.
  revert v l1. induction l2 as [|x l2 IH]; intros v l1 Hs.
  - rewrite !app_nil_r, range_nil. reflexivity.
  - assert (Hk : lenN l1 < lenN (l1 ++ x :: l2)) by (rewrite lenN_app, lenN_cons; lia).
    rewrite range_cons by assumption. cbn [fill].
    destruct (shows_at _ _ _ Hs Hk) as (a & v' & -> & Hn & Hs').
    rewrite nthN_app2, N.sub_diag in Hn by lia. injection Hn as <-.
    unfold write.
    assert (Hlt : lenN l1 <? lenN (map Some l1 ++ repeat None (length (x :: l2))) = true).
    { apply N.ltb_lt. rewrite lenN_app, lenN_map. unfold lenN. rewrite repeat_length. cbn [length]. lia. }
    rewrite Hlt. cbn [length repeat].
    assert (Hn : N.to_nat (lenN l1) = length (map Some l1)) by (unfold lenN; rewrite map_length; lia).
    rewrite Hn, firstn_app, firstn_all, Nat.sub_diag. cbn [firstn]. rewrite app_nil_r.
    rewrite skipn_app, skipn_all2 by lia.
    replace (S (length (map Some l1)) - length (map Some l1))%nat with 1%nat by lia. cbn [skipn app].
    specialize (IH v' (l1 ++ [x])).
    rewrite map_app, <- !app_assoc, lenN_app in IH. cbn [map app] in IH. unfold lenN at 1 in IH.
    cbn [length N.of_nat] in IH. rewrite lenN_app in IH.
    replace (lenN [x]) with 1 in IH by reflexivity. rewrite <- N.add_1_r, lenN_app. apply IH. assumption.
Qed.

Lemma written_all l : written (map Some l) = Some l.
Proof. induction l as [|a l IH]; [reflexivity|]. cbn [map written]. rewrite IH. reflexivity. Qed.

(** Whatever the source, the loop ends with every slot written and the values
    the list has. *)
Lemma new_raw_shows bits v l extra : v_len v = Some (lenN l) -> (count_ones bits = lenN l -> shows v 0 l) ->
  new_raw bits v extra = RRet (new_bia bits l extra).
Proof.
  intros Hl Hs. unfold new_raw, new_bia, new_impl. rewrite Hl.
  destruct (N.eqb_spec (count_ones bits) (lenN l)) as [He|He]; cbn [negb]; [|reflexivity].
  destruct (lenN l <=? 128); [|reflexivity].
  rewrite N.eqb_refl. cbn [negb orb].
  pose proof (fill_shows v [] l (Hs He)) as Hf. cbn [app map] in Hf. change (lenN (@nil A)) with 0 in Hf.
  replace (N.to_nat (lenN l)) with (length l) by (unfold lenN; lia).
  rewrite Hf, written_all. reflexivity.
Qed.

Lemma raw_vec bits l extra : new_raw bits (VVec l) extra = RRet (new_bia bits l extra).
Proof. apply new_raw_shows; [reflexivity|]. intros _. reflexivity. Qed.

Lemma bit_index_lt bits bit i : bit_index bits bit = Ok i -> i < count_ones bits.
Proof.
  intros H. destruct (N.eq_dec (count_ones bit) 1) as [Hc|Hc].
  - destruct (count_ones_1_pow2 _ Hc) as [k ->]. rewrite bit_index_pow2 in H.
    destruct (N.testbit bits k) eqn:Ht; [|discriminate]. injection H as <-. apply rank_lt_count. assumption.
  - exfalso. unfold bit_index in H. destruct (N.eqb_spec (count_ones bit) 1); [congruence|]. cbn in H.
    discriminate.
Qed.

Lemma raw_inserted_eq b bit a extra : raw_inserted b bit a extra = RRet (binserted b bit a extra).
Proof.
  unfold raw_inserted, binserted. destruct (bit_insert (bbits b) bit) as [bits|]; [|reflexivity].
  destruct (bit_index bits bit) as [i|] eqn:Hi; [|reflexivity]. apply bit_index_lt in Hi.
  apply new_raw_shows.
  - cbn [v_len]. rewrite lenN_insert. reflexivity.
  - rewrite lenN_insert. intros Hc. cbn [shows]. split; [lia|]. exists a. split; [reflexivity|]. intros _. reflexivity.
Qed.

Lemma raw_updated_eq b bit a extra : count_ones (bbits b) = lenN (bvalues b) ->
  raw_updated b bit a extra = RRet (bupdated b bit a extra).
Proof.
  intros Hok. unfold raw_updated, bupdated.
  destruct (bit_index (bbits b) bit) as [i|] eqn:Hi; [|reflexivity]. apply bit_index_lt in Hi. rewrite Hok in Hi.
  apply new_raw_shows.
  - cbn [v_len]. rewrite lenN_update by assumption. reflexivity.
  - intros _. cbn [shows]. split; [assumption|]. exists a. split; [reflexivity|]. intros _. reflexivity.
Qed.

Lemma raw_removed_eq b bit extra : count_ones (bbits b) = lenN (bvalues b) ->
  raw_removed b bit extra = RRet (bremoved b bit extra).
Proof.
  intros Hok. unfold raw_removed, bremoved. destruct (bit_remove (bbits b) bit) as [bits|]; [|reflexivity].
  destruct (bit_index (bbits b) bit) as [i|] eqn:Hi; [|reflexivity]. apply bit_index_lt in Hi. rewrite Hok in Hi.
  pose proof (lenN_remove _ _ Hi) as Hl.
  apply new_raw_shows.
  - cbn [v_len]. destruct (N.eqb_spec (lenN (bvalues b)) 0); [lia|]. f_equal. lia.
  - intros _. cbn [shows]. split; [assumption|reflexivity].
Qed.

Lemma new_raw_count bits v extra b : new_raw bits v extra = RRet (Ok b) ->
  count_ones (bbits b) = lenN (bvalues b).
Proof.
  unfold new_raw, new_impl. destruct (v_len v) as [len|]; [|discriminate].
  destruct (N.eqb_spec (count_ones bits) len) as [He|]; [|discriminate]. cbn [negb].
  destruct (len <=? 128); [|discriminate]. rewrite N.eqb_refl. cbn [negb orb].
  destruct (fill _ _ _) as [bd|] eqn:Hf; [|discriminate]. destruct (written bd) as [l|] eqn:Hw; [|discriminate].
  intros H. injection H as <-. cbn [bbits bvalues]. rewrite He.
  assert (Hfl : forall is v0 (b0 bd0 : list (option A)), fill is v0 b0 = Some bd0 -> length bd0 = length b0).
  { clear. induction is as [|i is IH]; intros v0 b0 bd0 H; cbn [fill] in H; [injection H as <-; reflexivity|].
    destruct (v_at v0 i) as [[a v1]|]; [|discriminate]. unfold write in H.
    destruct (N.ltb_spec i (lenN b0)); [|discriminate]. apply IH in H. rewrite H, app_length. cbn [length].
    rewrite firstn_length, skipn_length. unfold lenN in *. lia. }
  assert (Hwl : forall (bd0 : list (option A)) l0, written bd0 = Some l0 -> length l0 = length bd0).
  { clear. induction bd0 as [|[a|] bd0 IH]; intros l0 H; cbn [written] in H; [injection H as <-; reflexivity| |discriminate].
    destruct (written bd0); [|discriminate]. injection H as <-. cbn [length]. f_equal. apply IH. reflexivity. }
  apply Hfl in Hf. apply Hwl in Hw. rewrite repeat_length in Hf. unfold lenN. lia.
Qed.

Lemma new_raw_bits bits v extra b : new_raw bits v extra = RRet (Ok b) -> bbits b = bits /\ bextra b = extra /\ lenN (bvalues b) <= 128.
Proof.
  intros H. pose proof (new_raw_count _ _ _ _ H) as Hc. revert H.
  unfold new_raw, new_impl. destruct (v_len v) as [len|]; [|discriminate].
  destruct (N.eqb_spec (count_ones bits) len) as [He|]; [|discriminate]. cbn [negb].
  destruct (N.leb_spec len 128); [|discriminate]. rewrite N.eqb_refl. cbn [negb orb].
  destruct (fill _ _ _) as [bd|]; [|discriminate]. destruct (written bd) as [l|]; [|discriminate].
  intros H0. injection H0 as <-. cbn [bbits bextra bvalues] in *. repeat split. lia.
Qed.

Lemma bit_insert_lt bits bit r w : bit_insert bits bit = Ok r -> bits < 2 ^ w -> bit < 2 ^ w -> r < 2 ^ w.
Proof.
  intros H Hb Hi. destruct (N.eq_dec (count_ones bit) 1) as [Hc|Hc].
  - destruct (count_ones_1_pow2 _ Hc) as [k ->]. rewrite bit_insert_pow2 in H.
    destruct (N.testbit bits k) eqn:Ht; [discriminate|]. injection H as <-. apply lor_pow2_lt; [assumption|].
    apply (N.pow_lt_mono_r_iff 2); [lia|assumption].
  - exfalso. unfold bit_insert in H. destruct (N.eqb_spec (count_ones bit) 1); [congruence|]. discriminate.
Qed.

Lemma bit_remove_lt bits bit r w : bit_remove bits bit = Ok r -> bits < 2 ^ w -> bit < 2 ^ w -> r < 2 ^ w.
Proof.
  intros H Hb Hi. destruct (N.eq_dec (count_ones bit) 1) as [Hc|Hc].
  - destruct (count_ones_1_pow2 _ Hc) as [k ->]. rewrite bit_remove_pow2 in H.
    destruct (N.testbit bits k) eqn:Ht; [|discriminate]. injection H as <-. apply lxor_pow2_lt; [assumption|].
    apply (N.pow_lt_mono_r_iff 2); [lia|assumption].
  - exfalso. unfold bit_remove in H. destruct (N.eqb_spec (count_ones bit) 1); [congruence|]. discriminate.
Qed.

Lemma made_ok w b : made w b -> bia_ok w b.
Proof.
  induction 1 as [|bits l extra b Hb H|b bit a extra b' _ [IH1 IH2] Hb H|b bit a extra b' _ [IH1 IH2] Hb H|b bit extra b' _ [IH1 IH2] Hb H].
  - apply okv_nil.
  - split; [|exact (new_raw_count _ _ _ _ H)]. rewrite (proj1 (new_raw_bits _ _ _ _ H)). assumption.
  - unfold raw_inserted in H. destruct (bit_insert (bbits b) bit) as [bits|] eqn:Hi; [|discriminate].
    destruct (bit_index bits bit); [|discriminate].
    split; [|exact (new_raw_count _ _ _ _ H)]. rewrite (proj1 (new_raw_bits _ _ _ _ H)).
    exact (bit_insert_lt _ _ _ _ Hi IH1 Hb).
  - unfold raw_updated in H. destruct (bit_index (bbits b) bit); [|discriminate].
    split; [|exact (new_raw_count _ _ _ _ H)]. rewrite (proj1 (new_raw_bits _ _ _ _ H)). assumption.
  - unfold raw_removed in H. destruct (bit_remove (bbits b) bit) as [bits|] eqn:Hi; [|discriminate].
    destruct (bit_index (bbits b) bit); [|discriminate].
    split; [|exact (new_raw_count _ _ _ _ H)]. rewrite (proj1 (new_raw_bits _ _ _ _ H)).
    exact (bit_remove_lt _ _ _ _ Hi IH1 Hb).
Qed.

Lemma ok_made w b : bia_ok w b -> made w b.
Proof.
  intros H. apply (made_new w (bbits b) (bvalues b) (bextra b)); [exact (proj1 H)|].
  rewrite raw_vec, (new_bia_ok w) by exact H. destruct b. reflexivity.
Qed.

Lemma raw_defined w b bit a extra : made w b ->
  raw_inserted b bit a extra = RRet (binserted b bit a extra) /\
  raw_updated b bit a extra = RRet (bupdated b bit a extra) /\
  raw_removed b bit extra = RRet (bremoved b bit extra).
Proof.
  intros H. apply made_ok in H. destruct H as [_ H].
  split; [apply raw_inserted_eq|]. split; [apply raw_updated_eq|apply raw_removed_eq]; assumption.
Qed.

Lemma bat_none w b i : made w b -> bat b (2 ^ i) = Err BNotFound -> get b i = None.
Proof. intros H. apply made_ok in H. rewrite (bat_get w) by assumption. destruct (get b i); [discriminate|reflexivity]. Qed.
Lemma bat_some w b i a : made w b -> bat b (2 ^ i) = Ok a -> get b i = Some a.
Proof. intros H. apply made_ok in H. rewrite (bat_get w) by assumption. destruct (get b i); [|discriminate]. intros [= ->]. reflexivity. Qed.

Lemma raw_inserted_reads w b i a extra : made w b -> i < max_ones w ->
  match bat b (2 ^ i) with
  | Ok _ => raw_inserted b (2 ^ i) a extra = RRet (Err BFound)
  | Err _ => exists b', raw_inserted b (2 ^ i) a extra = RRet (Ok b') /\ bextra b' = extra /\
      forall j, bat b' (2 ^ j) = if i =? j then Ok a else bat b (2 ^ j)
  end.
Proof.
  intros Hm Hi. pose proof (made_ok _ _ Hm) as Hok. rewrite raw_inserted_eq.
  destruct (bat b (2 ^ i)) as [v|e] eqn:Hb.
  - apply (bat_some w) in Hb; [|assumption]. apply getv_testbit in Hb.
    unfold binserted. rewrite bit_insert_pow2, Hb. reflexivity.
  - assert (Hg : get b i = None) by (rewrite (bat_get w) in Hb by assumption; destruct (get b i); [discriminate|reflexivity]).
    destruct (binserted_ok w b i a extra Hok Hi Hg) as (b' & -> & Hok' & Hx & Hr).
    exists b'. split; [reflexivity|]. split; [assumption|]. intros j. rewrite !(bat_get w) by assumption. rewrite Hr.
    destruct (i =? j); reflexivity.
Qed.

Lemma raw_updated_reads w b i a extra : made w b ->
  match bat b (2 ^ i) with
  | Err _ => raw_updated b (2 ^ i) a extra = RRet (Err BNotFound)
  | Ok _ => exists b', raw_updated b (2 ^ i) a extra = RRet (Ok b') /\ bextra b' = extra /\
      forall j, bat b' (2 ^ j) = if i =? j then Ok a else bat b (2 ^ j)
  end.
Proof.
  intros Hm. pose proof (made_ok _ _ Hm) as Hok. rewrite raw_updated_eq by exact (proj2 Hok).
  destruct (bat b (2 ^ i)) as [v|e] eqn:Hb.
  - apply (bat_some w) in Hb; [|assumption].
    destruct (bupdated_ok w b i a v extra Hok Hb) as (b' & -> & Hok' & Hx & Hr).
    exists b'. split; [reflexivity|]. split; [assumption|]. intros j. rewrite !(bat_get w) by assumption. rewrite Hr.
    destruct (i =? j); reflexivity.
  - assert (Hg : get b i = None) by (rewrite (bat_get w) in Hb by assumption; destruct (get b i); [discriminate|reflexivity]).
    apply (okv_none _ _ _ _ Hok) in Hg. unfold bupdated. rewrite bit_index_pow2, Hg. reflexivity.
Qed.

Lemma raw_removed_reads w b i extra : made w b ->
  match bat b (2 ^ i) with
  | Err _ => raw_removed b (2 ^ i) extra = RRet (Err BNotFound)
  | Ok _ => exists b', raw_removed b (2 ^ i) extra = RRet (Ok b') /\ bextra b' = extra /\
      forall j, bat b' (2 ^ j) = if i =? j then Err BNotFound else bat b (2 ^ j)
  end.
Proof.
  intros Hm. pose proof (made_ok _ _ Hm) as Hok. rewrite raw_removed_eq by exact (proj2 Hok).
  destruct (bat b (2 ^ i)) as [v|e] eqn:Hb.
  - apply (bat_some w) in Hb; [|assumption].
    destruct (bremoved_ok w b i v extra Hok Hb) as (b' & -> & Hok' & Hx & Hr).
    exists b'. split; [reflexivity|]. split; [assumption|]. intros j. rewrite !(bat_get w) by assumption. rewrite Hr.
    destruct (i =? j); reflexivity.
  - assert (Hg : get b i = None) by (rewrite (bat_get w) in Hb by assumption; destruct (get b i); [discriminate|reflexivity]).
    apply (okv_none _ _ _ _ Hok) in Hg. unfold bremoved. rewrite bit_remove_pow2, Hg. reflexivity.
Qed.

Lemma raw_new_reads w bits l extra : bits < 2 ^ max_ones w ->
  match new_raw bits (VVec l) extra with
  | RRet (Ok b) => count_ones bits = lenN l /\ bextra b = extra /\
      forall i, bat b (2 ^ i) = if N.testbit bits i then match nthN l (ones_below bits i) with Some a => Ok a | None => Err BRange end else Err BNotFound
  | RRet (Err _) => count_ones bits <> lenN l
  | _ => False
  end.
Proof.
  intros Hb. rewrite raw_vec. unfold new_bia. destruct (N.eqb_spec (count_ones bits) (lenN l)) as [He|He]; cbn [negb]; [|assumption].
  destruct (N.leb_spec (lenN l) 128) as [Hl|Hl].
  - split; [assumption|]. split; [reflexivity|]. intros i. unfold bat. cbn [bbits bvalues]. rewrite index_law.
    destruct (N.testbit bits i); reflexivity.
  - pose proof (count_ones_lt _ _ Hb). pose proof (max_ones_le w). lia.
Qed.

End RawP.

Lemma ww_array {E : Env} {K V} {KK : Key K} (P : K * V -> Prop) d p (n : mnode K V) : ww P d p n ->
  forall b, array_in n b -> made fw b.
Proof.
  induction 1 as [| |d p bits values x Ho Hp Hok Hne Hx Hch IH]; intros b Hb; inversion Hb as [b0|b0 c b0' Hc Hb']; subst.
  - apply ok_made. exact Hok.
  - cbn [bvalues] in Hc. destruct (in_values_get _ _ _ _ Hok Hc) as (i & _ & Hi). exact (IH i c Hi b Hb').
Qed.

Lemma built_array {E : Env} {K V} {KK : Key K} (m : mnode K V) b : built m -> array_in m b -> made fw b.
Proof. intros H. apply built_ww in H. exact (ww_array _ _ _ _ H b). Qed.
