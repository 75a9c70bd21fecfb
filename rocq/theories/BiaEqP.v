(** Equality, copies and iteration of arrays (Debug.v). *)
From Coq Require Import NArith Arith List Bool Lia.
From Verif Require Import Base Words WordsP WordLaws Bia BiaP Raw RawP Debug SpecDebug.
Import ListNotations.
Open Scope N_scope.

Section ArrayP.
Context {A : Type}.

Lemma rank_onto bits n j : j < rank bits n -> exists i, i < n /\ N.testbit bits i = true /\ rank bits i = j.
Proof.
  induction n as [|n IH] using N.peano_ind; [rewrite rank_0; lia|].
  rewrite rank_succ. intros H. destruct (N.testbit bits n) eqn:Ht; cbn [N.b2n] in H.
  - destruct (N.eq_dec j (rank bits n)) as [->|Hne]; [exists n; repeat split; (lia || assumption)|].
    destruct IH as (i & Hi & H2); [lia|]. exists i. split; [lia|exact H2].
  - destruct IH as (i & Hi & H2); [lia|]. exists i. split; [lia|exact H2].
Qed.

Theorem array_iter w (b : bia A) : made w b ->
  biter b = flat_map (fun i => match bat b (2 ^ i) with Ok v => [v] | Err _ => [] end)
              (map N.of_nat (seq 0 (N.to_nat (max_ones w)))).
Proof.
  intros H. apply made_ok in H. unfold biter.
  rewrite (values_slots (max_ones w) (bbits b) (bvalues b) H) at 1. unfold slots.
  assert (Er : range 0 (max_ones w) = map N.of_nat (seq 0 (N.to_nat (max_ones w)))).
  { unfold range. rewrite ?N.sub_0_r. reflexivity. }
  rewrite <- Er. apply flat_map_ext_in. intros i _. rewrite (bat_get w b i H).
  unfold get. destruct (getv (bbits b) (bvalues b) i); reflexivity.
Qed.

Theorem array_at_index w (b : bia A) : made w b ->
  (forall i v, bat b (2 ^ i) = Ok v -> bat_index b (ones_below (bbits b) i) = Ok v) /\
  (forall j v, bat_index b j = Ok v -> exists i, i < max_ones w /\ bat b (2 ^ i) = Ok v /\ ones_below (bbits b) i = j) /\
  (forall j, lenN (biter b) <= j <-> bat_index b j = Err BRange).
Proof.
  intros H. apply made_ok in H. pose proof H as [Hlt Hc]. split; [|split].
  - intros i v. rewrite (bat_get w b i H). unfold get, getv, bat_index. rewrite <- rank_ones.
    destruct (N.testbit (bbits b) i); [|discriminate]. destruct (nthN (bvalues b) (rank (bbits b) i)); [|discriminate].
    trivial.
  - intros j v Hj. unfold bat_index in Hj. destruct (nthN (bvalues b) j) as [a|] eqn:En; [|discriminate].
    injection Hj as <-. pose proof (nthN_some_lt _ _ _ En) as Hl. rewrite <- Hc in Hl.
    rewrite <- (rank_full _ _ Hlt) in Hl. destruct (rank_onto _ _ _ Hl) as (i & Hi & Ht & Hr).
    exists i. split; [exact Hi|]. rewrite <- rank_ones. split; [|exact Hr].
    rewrite (bat_get w b i H). unfold get, getv. rewrite Ht, Hr, En. reflexivity.
  - intros j. unfold bat_index, biter. split.
    + intros Hj. rewrite nthN_ge by exact Hj. reflexivity.
    + intros Hj. destruct (N.lt_ge_cases j (lenN (bvalues b))) as [Hl|Hl]; [|exact Hl].
      destruct (nthN_lt_some _ _ Hl) as (a & Ha). rewrite Ha in Hj. discriminate.
Qed.

Theorem array_bit_index w (b : bia A) i v extra :
  (i < max_ones w ->
    binserted_bit_index w b i v extra = binserted b (2 ^ i) v extra /\
    bupdated_bit_index w b i v extra = bupdated b (2 ^ i) v extra /\
    bremoved_bit_index w b i extra = bremoved b (2 ^ i) extra) /\
  (max_ones w <= i ->
    binserted_bit_index w b i v extra = Err BRange /\
    bupdated_bit_index w b i v extra = Err BRange /\
    bremoved_bit_index w b i extra = Err BRange).
Proof.
  unfold binserted_bit_index, bupdated_bit_index, bremoved_bit_index. split; intros H.
  - rewrite nth_bit_ok by exact H. repeat split; reflexivity.
  - rewrite nth_bit_err by exact H. repeat split; reflexivity.
Qed.

Theorem array_clone (cl : A -> A) (b : bia A) bit :
  bextra (bclone cl b) = bextra b /\
  bat (bclone cl b) bit = match bat b bit with Ok v => Ok (cl v) | Err e => Err e end.
Proof. split; [reflexivity|]. destruct b as [bits values x]. apply bat_map. Qed.

Theorem array_iter_mut (f : A -> A) (b : bia A) bit :
  bextra (biter_mut f b) = bextra b /\ biter (biter_mut f b) = map f (biter b) /\
  bat (biter_mut f b) bit = match bat b bit with Ok v => Ok (f v) | Err e => Err e end.
Proof. split; [reflexivity|]. split; [reflexivity|]. destruct b as [bits values x]. apply bat_map. Qed.

Theorem array_default w i : made w (@bdefault A) /\ biter (@bdefault A) = [] /\
  bat (@bdefault A) (2 ^ i) = Err BNotFound /\ bextra (@bdefault A) = 0.
Proof.
  split; [constructor|]. split; [reflexivity|]. split; [|reflexivity].
  rewrite (bat_get w) by (apply made_ok; constructor). unfold get. cbn [bdefault bbits bvalues].
  rewrite getv_nil. reflexivity.
Qed.

Variable eqa : A -> A -> bool.

Lemma slice_eq_nth l r : slice_eq eqa l r = true <->
  lenN l = lenN r /\ forall j x y, nthN l j = Some x -> nthN r j = Some y -> eqa x y = true.
Proof.
  revert r. induction l as [|x l IH]; intros [|y r]; cbn [slice_eq].
  - split; [|reflexivity]. intros _. split; [reflexivity|]. intros j a b Ha. unfold nthN in Ha.
    destruct (N.to_nat j); discriminate.
  - split; [discriminate|]. rewrite lenN_cons, lenN_nil. intros [H _]. lia.
  - split; [discriminate|]. rewrite lenN_cons, lenN_nil. intros [H _]. lia.
  - rewrite andb_true_iff, IH, !lenN_cons. split.
    + intros (Hxy & Hl & Hn). split; [lia|]. intros j a b. unfold nthN.
      destruct (N.to_nat j) as [|n] eqn:Ej; cbn [nth_error]; [congruence|]. intros Ha Hb.
      apply (Hn (N.of_nat n)); unfold nthN; rewrite Nat2N.id; assumption.
    + intros (Hl & Hn). split; [exact (Hn 0 x y eq_refl eq_refl)|]. split; [lia|].
      intros j a b Ha Hb. apply (Hn (N.succ j)); unfold nthN in *; rewrite N2Nat.inj_succ; assumption.
Qed.

Theorem array_eq w (a b : bia A) : made w a -> made w b ->
  (dyn_eq eqa a b = true <->
   bextra a = bextra b /\ forall i, agree eqa (bat a (2 ^ i)) (bat b (2 ^ i))).
Proof.
  intros Ha Hb. apply made_ok in Ha, Hb. pose proof Ha as [La Ca]. pose proof Hb as [Lb Cb]. unfold dyn_eq.
  rewrite !andb_true_iff, !N.eqb_eq, slice_eq_nth. split.
  - intros ((Eb & Hl & Hn) & Ex). split; [exact Ex|]. intros i.
    rewrite (bat_get w a i Ha), (bat_get w b i Hb). unfold get, getv. rewrite Eb.
    destruct (N.testbit (bbits b) i) eqn:Ht; [|exact Logic.I].
    pose proof (rank_lt_count _ _ Ht) as Hr. rewrite Cb in Hr.
    destruct (nthN_lt_some (bvalues b) _ Hr) as (y & Hy).
    destruct (nthN_lt_some (bvalues a) (rank (bbits b) i) ltac:(lia)) as (x & Hx).
    rewrite Hx, Hy. exact (Hn _ _ _ Hx Hy).
  - intros (Ex & H).
    assert (Eb : bbits a = bbits b).
    { apply N.bits_inj. intros i. specialize (H i).
      rewrite (bat_get w a i Ha), (bat_get w b i Hb) in H. unfold get in H.
      destruct (N.testbit (bbits a) i) eqn:T1, (N.testbit (bbits b) i) eqn:T2; try reflexivity; exfalso.
      - destruct (okv_some _ _ _ _ Ha T1) as (x & Hx). rewrite Hx in H.
        unfold getv in H. rewrite T2 in H. exact H.
      - destruct (okv_some _ _ _ _ Hb T2) as (x & Hx). rewrite Hx in H.
        unfold getv in H. rewrite T1 in H. exact H. }
    split; [|exact Ex]. split; [exact Eb|]. split; [congruence|].
    intros j x y Hx Hy. pose proof (nthN_some_lt _ _ _ Hx) as Hl. rewrite <- Ca in Hl.
    rewrite <- (rank_full _ _ La) in Hl. destruct (rank_onto _ _ _ Hl) as (i & Hi & Ht & Hr).
    specialize (H i). rewrite (bat_get w a i Ha), (bat_get w b i Hb) in H. unfold get, getv in H.
    rewrite <- Eb, Ht, Hr, Hx, Hy in H. exact H.
Qed.

Theorem array_eq_impl (a b : bia A) : lenN (biter a) = lenN (biter b) -> impl_eq eqa a b = Ret (dyn_eq eqa a b).
Proof.
  unfold impl_eq, dyn_eq, biter. intros H.
  assert (El : eq_loop eqa (bvalues a) (bvalues b) = Ret (slice_eq eqa (bvalues a) (bvalues b))).
  { revert H. generalize (bvalues b). induction (bvalues a) as [|x l IH]; intros [|y r] H;
      rewrite ?lenN_cons, ?lenN_nil in H; try lia; cbn [eq_loop slice_eq]; [reflexivity|].
    destruct (eqa x y); cbn [negb andb]; [|reflexivity]. apply IH. lia. }
  rewrite El. destruct (bbits a =? bbits b), (bextra a =? bextra b), (slice_eq eqa (bvalues a) (bvalues b)); reflexivity.
Qed.

End ArrayP.
