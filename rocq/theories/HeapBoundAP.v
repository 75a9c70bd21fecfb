(** How many cells the public operations allocate. *)
From Coq Require Import NArith Arith List Bool Lia ZifyBool ZifyN ZifyNat Permutation.
From Verif Require Import Base Words WordsP Flag FlagP Bia BiaP Node Spec SpecP Inv NodeP InsertP TrieP Api Trans Transform Joint JointT JointLeafP Reach ReachP
  Heap SpecH SpecB HeapP HeapOpP HeapCostP HeapHist HeapHistP HeapBulk HeapBulkP HeapRun HeapRunP HeapBoundP HeapBoundJP HeapBoundLP HeapBoundFP.
Import ListNotations.
Open Scope N_scope.

(** The most levels a tree can have. *)
Lemma most_levels {E : Env} : exists M, N.of_nat M * log_b fw < max_ones hw + log_b fw /\ forall b, levels 0 b -> (b <= M)%nat.
Proof.
  set (p := fun m => N.of_nat m * log_b fw < max_ones hw + log_b fw).
  assert (Hp : forall m, p (S m) -> p m) by (unfold p; intros; lia).
  assert (Hb : forall m, p m -> (m <= N.to_nat (max_ones hw + log_b fw))%nat).
  { unfold p. intros m H. pose proof (log_b_pos fw). nia. }
  assert (Hmax : forall n, (forall m, p m -> (m <= n)%nat) -> exists M, p M /\ forall m, p m -> (m <= M)%nat).
  { induction n as [|n IH]; intros Hn.
    - exists 0%nat. split; [|exact Hn]. unfold p. pose proof (log_b_pos fw). lia.
    - destruct (N.ltb_spec (N.of_nat (S n) * log_b fw) (max_ones hw + log_b fw)) as [Hlt|Hge].
      + exists (S n). split; [exact Hlt|exact Hn].
      + apply IH. intros m Hm. specialize (Hn m Hm). assert (m <> S n); [|lia]. intros ->. unfold p in Hm. lia. }
  destruct (Hmax _ Hb) as (M & HM & Hall). exists M. split; [exact HM|]. intros b Hl. apply Hall. apply levels_0, Hl.
Qed.

Section Sums.
Context {E : Env} {K V : Type} {KK : Key K}.
Lemma cost_all wt b (l : list (K * V)) : cost wt b (fun _ => true) l = total (fun e => b + wt (hash (ecls e)))%nat l.
Proof. induction l as [|e l IH]; [reflexivity|]. cbn [total]. rewrite <- IH. reflexivity. Qed.
Lemma cost_touched {R} wt b (op : transform_op (K * V) V R) (l : list (K * V)) :
  cost wt b (changes op) l = total (fun e => b + wt (hash (ecls e)))%nat (touched op l).
Proof.
  induction l as [|e l IH]; [reflexivity|]. unfold cost in *. rewrite sum_cons, IH. unfold charge, changes at 1, touched. cbn [filter].
  destruct (tcall op e); reflexivity.
Qed.
Lemma touched_nil {R} (op : transform_op (K * V) V R) (l : list (K * V)) : touched op l = [] -> forall e, In e l -> changes op e = false.
Proof.
  intros H e Hi. unfold changes. destruct (tcall op e) eqn:Ht; [reflexivity| |]; exfalso;
    (assert (Hf : In e (touched op l)); [apply filter_In; split; [exact Hi|rewrite Ht; reflexivity]|rewrite H in Hf; exact Hf]).
Qed.
End Sums.

Lemma root_len {E : Env} {R A B} (n : hnres R) (w : heap A B) n' r w' : hnres_root n w = (n', r, w') -> (length w' <= length w + 1)%nat.
Proof.
  destruct n as [x z|z]; cbn [hnres_root].
  - intros H. injection H as _ _ <-. lia.
  - cbn [hm_new alloc others noise quiet]. intros H. injection H as _ _ <-. rewrite len_snoc. lia.
Qed.

Section Api.
Context {E : Env} {K V : Type} {KK : Key K} {R : Type}.
Context (rdef : R) (rd : R -> R -> R).

Lemma held_map cs (h : heap K V) vs i n : lawful rdef rd [] [] cs h vs -> nth_error vs i = Some n ->
  exists d, h_deref (enough h) h n = Ret d /\ wf 0 0 (strip d) /\ hm_visit h n = Ret (dvisit d).
Proof.
  intros HL Hi. destruct (lawful_rep _ _ _ _ _ _ _ HL Hi) as (t & Ht & Hrt).
  destruct (deref_ok h (fun _ => True) n t Ht (fun _ _ => I)) as (d & Hd & Hs & _). exists d. split; [exact Hd|].
  unfold dvisit. rewrite Hs. split; [|apply hm_visit_ok, Ht]. exact (reachable_mwf _ Hrt).
Qed.
End Api.

Section One.
Context {E : Env} {K V : Type} {KK : Key K} {R : Type}.
Context (rdef : R) (rd : R -> R -> R).
Notation heap := (heap K V).

Theorem transform_bound cs (h : heap) vs i n st (op : transform_op (K * V) V R) n' r h' :
  lawful rdef rd [] [] cs h vs -> nth_error vs i = Some n -> hm_transform rdef rd st op h n = Ret (n', r, h') ->
  exists l b, hm_visit h n = Ret l /\ N.of_nat b * log_b fw < max_ones hw + log_b fw /\
  (length h' <= length h + 1 + total (fun e => b + rivals (fst e) l) (touched op l))%nat /\
  (touched op l = [] -> l <> [] -> h' = h) /\
  (forall x, op = TRemoved x -> length h' = S (length h)).
Proof.
  intros HL Hi Ho. destruct (held_map _ _ _ _ _ _ _ HL Hi) as (d & Hd & HW & Hv). destruct most_levels as (M & HMb & HM).
  exists (dvisit d), M. split; [exact Hv|]. split; [exact HMb|]. unfold hm_transform in Ho. rewrite Hd in Ho. cbn [bind] in Ho.
  apply bind_ret in Ho. destruct Ho as ([t w] & Ht & Ho).
  assert (Hc : (length w <= length h + total (fun e => M + rivals (fst e) (dvisit d)) (touched op (dvisit d)))%nat).
  { pose proof (h_transform_cost rdef rd M HM (fun x => cnt x (dvisit d)) st op d 0 0 h HW (fun x => le_n _) _ _ Ht) as Hc.
    rewrite cost_touched in Hc. unfold lv in Hc. rewrite Nat.sub_0_r in Hc. exact Hc. }
  split; [|split].
  - destruct t as [z|m]; [injection Ho as _ _ <-; lia|]. assert (Hr : hnres_root m w = (n', r, h')) by congruence. apply root_len in Hr. lia.
  - intros Hn Hne. destruct (h_transform_still rdef rd op st d 0 0 h t w HW (touched_nil op _ Hn) Ht) as (-> & Hu).
    destruct (Hu Hne) as (z & ->). injection Ho as _ _ <-. reflexivity.
  - intros x ->. assert (Htw : t = HTN (HNZ x) /\ w = h).
    { destruct d as [a [bits values z]|[? ? ? ? ?|? ? ? ? ?]|[? ? ?]]; revert Ht; cbn; intros [= <- <-]; split; reflexivity. }
    destruct Htw as (-> & ->). cbn [hnres_root hm_new alloc others noise quiet] in Ho. injection Ho as _ _ <-. rewrite len_snoc. reflexivity.
Qed.

Theorem tt_bound cs (h : heap) vs i j n m st (both : joint_op (K * V) V R) (lop rop : transform_op (K * V) V R) n' r h' :
  lawful rdef rd [] [] cs h vs -> nth_error vs i = Some n -> nth_error vs j = Some m -> hm_tt rdef rd st both lop rop h n m = Ret (n', r, h') ->
  exists l l' b, hm_visit h n = Ret l /\ hm_visit h m = Ret l' /\ N.of_nat b * log_b fw < max_ones hw + log_b fw /\
  let price := fun e : K * V => (b + 2 * (rivals (fst e) l + rivals (fst e) l'))%nat in
  (length h' <= length h + 2 + total price (touched lop l) + total price l')%nat /\
  (length h' <= length h + 2 + total price l + total price (touched rop l'))%nat.
Proof.
  intros HL Hi Hj Ho. destruct (held_map _ _ _ _ _ _ _ HL Hi) as (d & Hd & HW & Hv). destruct (held_map _ _ _ _ _ _ _ HL Hj) as (d' & Hd' & HW' & Hv').
  destruct most_levels as (M & HMb & HM). exists (dvisit d), (dvisit d'), M. split; [exact Hv|]. split; [exact Hv'|]. split; [exact HMb|].
  cbn zeta. unfold hm_tt in Ho. rewrite Hd, Hd' in Ho. cbn [bind] in Ho. apply bind_ret in Ho. destruct Ho as ([t w] & Ht & Ho).
  assert (Hl : (length h' <= length w + 1)%nat).
  { destruct t as [z|z|z|x]; try (injection Ho as _ _ <-; lia). assert (Hr : hnres_root x w = (n', r, h')) by congruence. apply root_len in Hr. exact Hr. }
  set (wt := fun x => (2 * (cnt x (dvisit d) + cnt x (dvisit d')))%nat).
  pose proof (fun selL selR HP H1 H2 => h_tt_cost rdef rd st M HM wt (fun x => cnt x (dvisit d)) (fun x => cnt x (dvisit d')) (fun x => le_n _)
    both lop rop selL selR d d' 0 0 h HP H1 H2 HW HW' (fun x => le_n _) (fun x => le_n _) _ _ Ht) as Hc.
  assert (Hx : (extra (dvisit d) (dvisit d') <= 1)%nat) by (unfold extra; destruct (dvisit d), (dvisit d'); lia).
  unfold lv in Hc. rewrite Nat.sub_0_r in Hc. split.
  - specialize (Hc (changes lop) (fun _ => true) (or_intror (fun _ => eq_refl)) (fun _ H => H) (fun _ _ => eq_refl)).
    rewrite cost_touched, cost_all in Hc. unfold wt, cnt in Hc. unfold rivals, hashk. unfold ecls in Hc. cbn beta in *. lia.
  - specialize (Hc (fun _ => true) (changes rop) (or_introl (fun _ => eq_refl)) (fun _ _ => eq_refl) (fun _ H => H)).
    rewrite cost_touched, cost_all in Hc. unfold wt, cnt in Hc. unfold rivals, hashk. unfold ecls in Hc. cbn beta in *. lia.
Qed.
End One.

Section Two.
Context {E : Env} {K V L W R : Type} {KK : Key K} {KL : Key L}.
Context (rdef : R) (rd : R -> R -> R).
Context (cs : list (hcall K V R)) (h : heap K V) (vs : list hnode) (i : nat) (n : hnode).
Context (HL : lawful rdef rd [] [] cs h vs) (Hi : nth_error vs i = Some n).

Theorem transmute_bound {S X} (op : transmute_op (K * V) S X R) (w : heap S X) n' r w' :
  hm_transmute rdef rd op h n w = Ret (n', r, w') ->
  exists l b, hm_visit h n = Ret l /\ N.of_nat b * log_b fw < max_ones hw + log_b fw /\
  (length w' <= length w + 2 + total (fun e => b + rivals (fst e) l) l)%nat.
Proof.
  intros Ho. destruct (held_map _ _ _ _ _ _ _ HL Hi) as (d & Hd & HW & Hv). destruct most_levels as (M & HMb & HM).
  exists (dvisit d), M. split; [exact Hv|]. split; [exact HMb|]. unfold hm_transmute in Ho. rewrite Hd in Ho. cbn [bind] in Ho.
  apply bind_ret in Ho. destruct Ho as ([t w1] & Ht & Ho). assert (Hr : hnres_root t w1 = (n', r, w')) by congruence. apply root_len in Hr.
  pose proof (h_transmute_cost1 rdef rd M HM (fun x => cnt x (dvisit d)) op d 0 0 w HW (fun x => le_n _) _ _ Ht) as Hc.
  rewrite cost_all in Hc. unfold lv in Hc. rewrite Nat.sub_0_r in Hc. unfold cnt, ecls in Hc. unfold rivals, hashk.
  assert (Hm : (match dvisit d with [] => 1 | _ => 0 end <= 1)%nat) by (destruct (dvisit d); lia). cbn beta in *. lia.
Qed.

Context (cs' : list (hcall L W R)) (hr : heap L W) (vs' : list hnode) (j : nat) (m : hnode).
Context (HL' : lawful rdef rd [] [] cs' hr vs') (Hj : nth_error vs' j = Some m).

Ltac start :=
  destruct (held_map _ _ _ _ _ _ _ HL Hi) as (d & Hd & HW & Hv); destruct (held_map _ _ _ _ _ _ _ HL' Hj) as (d' & Hd' & HW' & Hv');
  destruct most_levels as (M & HMb & HM); exists (dvisit d), (dvisit d'), M; split; [exact Hv|]; split; [exact Hv'|]; split; [exact HMb|].
Ltac finish Hc d d' :=
  assert (Hx : (extra (dvisit d) (dvisit d') <= 1)%nat) by (unfold extra; destruct (dvisit d), (dvisit d'); lia);
  unfold lv in Hc; rewrite Nat.sub_0_r in Hc; repeat rewrite cost_touched in Hc; repeat rewrite cost_all in Hc;
  unfold cnt, ecls in Hc; unfold rivals, hashk; cbn beta in *; lia.

Theorem tm_bound st (both : transform_op ((K * V) * (L * W)) V R) lop (rop : transmute_op (L * W) K V R) n' r h' :
  hm_tm rdef rd st both lop rop h n hr m = Ret (n', r, h') ->
  exists l l' b, hm_visit h n = Ret l /\ hm_visit hr m = Ret l' /\ N.of_nat b * log_b fw < max_ones hw + log_b fw /\
  (length h' <= length h + 2 + total (fun e => b + 2 * (rivals (fst e) l + rivals (fst e) l')) (touched lop l) +
    total (fun e => b + 2 * (rivals (fst e) l + rivals (fst e) l')) l')%nat.
Proof.
  intros Ho. start. unfold hm_tm in Ho. rewrite Hd, Hd' in Ho. cbn [bind] in Ho. apply bind_ret in Ho. destruct Ho as ([t w] & Ht & Ho).
  assert (Hl : (length h' <= length w + 1)%nat).
  { destruct t as [z|x]; [injection Ho as _ _ <-; lia|]. assert (Hr : hnres_root x w = (n', r, h')) by congruence. apply root_len in Hr. exact Hr. }
  pose proof (h_tm_cost rdef rd st M HM (fun x => (2 * (cnt x (dvisit d) + cnt x (dvisit d')))%nat) (fun x => cnt x (dvisit d)) (fun x => cnt x (dvisit d'))
    (fun x => le_n _) (changes lop) (fun _ => true) both lop rop d d' 0 0 h (fun _ H => H) (fun _ => eq_refl) HW HW' (fun x => le_n _) (fun x => le_n _) _ _ Ht) as Hc.
  finish Hc d d'.
Qed.

Theorem mt_bound st (both : transform_op ((K * V) * (L * W)) W R) (lop : transmute_op (K * V) L W R) rop n' r h' :
  hm_mt rdef rd st both lop rop h n hr m = Ret (n', r, h') ->
  exists l l' b, hm_visit h n = Ret l /\ hm_visit hr m = Ret l' /\ N.of_nat b * log_b fw < max_ones hw + log_b fw /\
  (length h' <= length hr + 2 + total (fun e => b + 2 * (rivals (fst e) l + rivals (fst e) l')) l +
    total (fun e => b + 2 * (rivals (fst e) l + rivals (fst e) l')) (touched rop l'))%nat.
Proof.
  intros Ho. start. unfold hm_mt in Ho. rewrite Hd, Hd' in Ho. cbn [bind] in Ho. apply bind_ret in Ho. destruct Ho as ([t w] & Ht & Ho).
  assert (Hl : (length h' <= length w + 1)%nat).
  { destruct t as [z|x]; [injection Ho as _ _ <-; lia|]. assert (Hr : hnres_root x w = (n', r, h')) by congruence. apply root_len in Hr. exact Hr. }
  pose proof (h_mt_cost rdef rd st M HM (fun x => (2 * (cnt x (dvisit d) + cnt x (dvisit d')))%nat) (fun x => cnt x (dvisit d)) (fun x => cnt x (dvisit d'))
    (fun x => le_n _) (fun _ => true) (changes rop) both lop rop d d' 0 0 hr (fun _ => eq_refl) (fun _ H => H) HW HW' (fun x => le_n _) (fun x => le_n _) _ _ Ht) as Hc.
  finish Hc d d'.
Qed.

Theorem mm_bound {S X} (both : transmute_op ((K * V) * (L * W)) S X R) (lop : transmute_op (K * V) S X R) (rop : transmute_op (L * W) S X R)
  (w : heap S X) n' r w' : hm_mm rdef rd both lop rop h n hr m w = Ret (n', r, w') ->
  exists l l' b, hm_visit h n = Ret l /\ hm_visit hr m = Ret l' /\ N.of_nat b * log_b fw < max_ones hw + log_b fw /\
  (length w' <= length w + 2 + total (fun e => b + 2 * (rivals (fst e) l + rivals (fst e) l')) l +
    total (fun e => b + 2 * (rivals (fst e) l + rivals (fst e) l')) l')%nat.
Proof.
  intros Ho. start. unfold hm_mm in Ho. rewrite Hd, Hd' in Ho. cbn [bind] in Ho. apply bind_ret in Ho. destruct Ho as ([t w1] & Ht & Ho).
  assert (Hr : hnres_root t w1 = (n', r, w')) by congruence. apply root_len in Hr.
  pose proof (h_mm_cost rdef rd M HM (fun x => (2 * (cnt x (dvisit d) + cnt x (dvisit d')))%nat) (fun x => cnt x (dvisit d)) (fun x => cnt x (dvisit d'))
    (fun x => le_n _) both lop rop d d' 0 0 w HW HW' (fun x => le_n _) (fun x => le_n _) _ _ Ht) as Hc.
  finish Hc d d'.
Qed.
End Two.
