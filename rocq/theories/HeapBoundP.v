(** How many cells transform, transmute and the joint operations allocate. *)
From Coq Require Import NArith Arith List Bool Lia ZifyBool ZifyN ZifyNat Permutation.
From Verif Require Import Base Words WordsP Flag FlagP Bia BiaP Node Spec SpecP Inv NodeP Api Trans Transform Joint JointT
  Heap SpecH HeapP HeapOpP HeapCostP HeapBulk HeapBulkP.
Import ListNotations.
Open Scope N_scope.

(** * Counting *)
Section Within.
Context {S X : Type}.
Notation heap := (heap S X).
Implicit Types (w : heap).

(** A returning run allocates at most [n] cells. *)
Definition within {A} w (o : outcome (A * heap)) (n : nat) : Prop := forall a w', o = Ret (a, w') -> (length w' <= length w + n)%nat.

Lemma within_ret {A} w (a : A) n : within w (Ret (a, w)) n.
Proof. intros b w' H. injection H as _ <-. lia. Qed.
Lemma within_panic {A} w n : within (A := A) w Panic n.
Proof. intros b w' H. discriminate. Qed.
Lemma within_diverge {A} w n : within (A := A) w Diverge n.
Proof. intros b w' H. discriminate. Qed.
Lemma within_weak {A} w (o : outcome (A * heap)) n m : within w o n -> (n <= m)%nat -> within w o m.
Proof. intros H Hn a w' Ho. specialize (H a w' Ho). lia. Qed.
Lemma within_bind {A B} w (o : outcome (A * heap)) (f : A * heap -> outcome (B * heap)) n m :
  within w o n -> (forall a w', o = Ret (a, w') -> within w' (f (a, w')) m) -> within w (bind o f) (n + m).
Proof.
  intros Ho Hf b w2 H. destruct o as [[a w1]| |]; try discriminate. cbn [bind] in H.
  specialize (Ho a w1 eq_refl). specialize (Hf a w1 eq_refl b w2 H). lia.
Qed.
Lemma within_pure {A B} w (o : outcome A) (f : A -> outcome (B * heap)) n :
  (forall a, o = Ret a -> within w (f a) n) -> within w (bind o f) n.
Proof. intros Hf b w2 H. destruct o as [a| |]; try discriminate. exact (Hf a eq_refl b w2 H). Qed.

Lemma hl_new_within w k v x : within w (hl_new w k v x) 1.
Proof.
  intros a w' H. unfold hl_new in H. apply bind_ret in H. destruct H as (z & _ & H). injection H as _ <-. rewrite len_snoc. lia.
Qed.
Lemma hs_new_len w k v : length (snd (hs_new w k v)) = Datatypes.S (length w).
Proof. apply len_snoc. Qed.

End Within.

(** Walks through a run: reads cost nothing. *)
Ltac wstep := match goal with
  | |- within _ (Ret _) _ => apply within_ret
  | |- within _ Panic _ => apply within_panic
  | |- within _ Diverge _ => apply within_diverge
  end.

Section Leaf.
Context {S X R : Type}.
Notation heap := (heap S X).
Implicit Types (w : heap).

Lemma new_s_within k v (r : R) w : within w (new_s k v r w) 1.
Proof. intros a w' H. unfold new_s in H. cbn [hs_new alloc others noise quiet] in H. injection H as _ <-. rewrite len_snoc. lia. Qed.
Lemma new_l_within k v x (r : R) w : within w (new_l k v x r w) 1.
Proof.
  unfold new_l. apply within_weak with (1 + 0)%nat; [|lia]. apply within_bind; [apply hl_new_within|]. intros a w' _. wstep.
Qed.
Lemma hn_cons_within k v (n : hnres R) (r : R) w : within w (hn_cons k v n r w) 1.
Proof.
  unfold hn_cons. destruct n as [[c|l|s] z|z]; [wstep| | |apply new_s_within];
    apply within_weak with (1 + 0)%nat; try lia; (apply within_bind; [apply hl_new_within|]; intros a w' _; wstep).
Qed.
Lemma as_t_within (o : outcome (hnres R * heap)) w n : within w o n -> within w (as_t o) n.
Proof. intros H. apply within_weak with (n + 0)%nat; [|lia]. apply within_bind; [exact H|]. intros a w' _. wstep. Qed.
Lemma as_j_within (o : outcome (hnres R * heap)) w n : within w o n -> within w (as_j o) n.
Proof. intros H. apply within_weak with (n + 0)%nat; [|lia]. apply within_bind; [exact H|]. intros a w' _. wstep. Qed.
Lemma as_flip_within (o : outcome (hjres R * heap)) w n : within w o n -> within w (as_flip o) n.
Proof. intros H. apply within_weak with (n + 0)%nat; [|lia]. apply within_bind; [exact H|]. intros a w' _. wstep. Qed.
Lemma ht_cons_within x k v (t : htres R) (r : R) w : within w (ht_cons x k v t r w) 1.
Proof. destruct t; apply as_t_within; [apply new_l_within|apply hn_cons_within]. Qed.

(** ** The loop *)
Definition sum {A} (f : A -> nat) (l : list A) : nat := list_sum (map f l).
Lemma sum_cons {A} (f : A -> nat) a l : sum f (a :: l) = (f a + sum f l)%nat.
Proof. reflexivity. Qed.
Lemma sum_app {A} (f : A -> nat) l l' : sum f (l ++ l') = (sum f l + sum f l')%nat.
Proof. unfold sum. rewrite map_app, list_sum_app. reflexivity. Qed.
Lemma sum_le {A} (f g : A -> nat) l : (forall a, In a l -> (f a <= g a)%nat) -> (sum f l <= sum g l)%nat.
Proof.
  induction l as [|a l IH]; intros H; [apply le_n|]. rewrite !sum_cons. pose proof (H a (or_introl eq_refl)).
  pose proof (IH (fun x Hx => H x (or_intror Hx))). lia.
Qed.
Lemma sum_add {A} (f g : A -> nat) l : sum (fun a => f a + g a)%nat l = (sum f l + sum g l)%nat.
Proof. induction l as [|a l IH]; [reflexivity|]. rewrite !sum_cons, IH. lia. Qed.

Lemma hloop_within (step : hacc R -> N -> heap -> outcome (hacc R * heap)) (c : N -> nat) l : forall a w,
  (forall i a w, In i l -> within w (step a i w) (c i)) -> within w (hloop step l a w) (sum c l).
Proof.
  induction l as [|i l IH]; intros a w Hs; cbn [hloop]; [wstep|]. rewrite sum_cons. apply within_bind.
  - apply Hs. left. reflexivity.
  - intros a' w' _. apply IH. intros j b v Hj. apply Hs. right. exact Hj.
Qed.
Lemma hrun_loop_within {E : Env} (rd : R -> R -> R) rdef st (step : hacc R -> N -> heap -> outcome (hacc R * heap)) (c : N -> nat) w :
  (forall i a w, i < max_ones fw -> within w (step a i w) (c i)) -> within w (hrun_loop rdef rd st step w) (sum c (range 0 (max_ones fw))).
Proof.
  intros Hs. destruct st; cbn [hrun_loop].
  - apply hloop_within. intros i a v Hi. apply Hs. apply range_in in Hi. lia.
  - rewrite (range_app 0 (max_ones fw / 2) (max_ones fw)), sum_app by (try lia; apply N.div_le_upper_bound; lia).
    unfold hhalves. apply within_bind.
    + apply hloop_within. intros i a v Hi. apply Hs. apply range_in in Hi. pose proof (N.div_le_upper_bound (max_ones fw) 2 (max_ones fw)). lia.
    + intros l w1 _. apply within_weak with (sum c (range (max_ones fw / 2) (max_ones fw)) + 0)%nat; [|lia]. apply within_bind.
      * apply hloop_within. intros i a v Hi. apply Hs. apply range_in in Hi. lia.
      * intros r w2 _. apply within_pure. intros bits _. wstep.
Qed.
Lemma hfinish_within {E : Env} (a : hacc R) w : within w (hfinish a w) 1.
Proof.
  assert (H : forall vs, within w (let* b := unwrap_ok (new_bia (ha_bits a) vs (ha_size a)) in
    let (c, w) := alloc w (CellC b) in Ret (HNN (HC c) (ha_red a), w)) 1).
  { intros vs. apply within_pure. intros b _ x w' H. cbn [alloc others noise quiet] in H. injection H as _ <-. rewrite len_snoc. lia. }
  unfold hfinish. destruct (ha_values a) as [|[c|l|s] [|n vs]]; try wstep; apply H.
Qed.
End Leaf.

(** * Costs *)
Section Cost.
Context {E : Env} {K V : Type} {KK : Key K}.
Context (wt : N -> nat).

(** What the selected entries cost: [b] branches each, and what their hash
    weighs. *)
Definition charge (b : nat) (sel : K * V -> bool) (e : K * V) : nat := if sel e then (b + wt (hash (ecls e)))%nat else 0%nat.
Definition cost (b : nat) (sel : K * V -> bool) (l : list (K * V)) : nat := sum (charge b sel) l.

Lemma cost_app b sel l l' : cost b sel (l ++ l') = (cost b sel l + cost b sel l')%nat.
Proof. apply sum_app. Qed.
Lemma cost_flat {A} b sel (f : A -> list (K * V)) l : cost b sel (flat_map f l) = sum (fun i => cost b sel (f i)) l.
Proof. induction l as [|a l IH]; [reflexivity|]. cbn [flat_map]. rewrite cost_app, IH, sum_cons. reflexivity. Qed.
Lemma cost_le b b' sel sel' l : (b <= b')%nat -> (forall e, In e l -> sel e = true -> sel' e = true) -> (cost b sel l <= cost b' sel' l)%nat.
Proof.
  intros Hb Hs. apply sum_le. intros e He. unfold charge. specialize (Hs e He). destruct (sel e); [rewrite Hs by reflexivity; lia|lia].
Qed.
Lemma cost_in b sel l e : In e l -> sel e = true -> (b + wt (hash (ecls e)) <= cost b sel l)%nat.
Proof.
  intros Hi Hs. induction l as [|x l IH]; [contradiction|]. unfold cost in *. rewrite sum_cons. destruct Hi as [->|Hi].
  - unfold charge at 1. rewrite Hs. lia.
  - specialize (IH Hi). lia.
Qed.
Lemma cost_up b sel l e : In e l -> sel e = true -> (cost b sel l + 1 <= cost (S b) sel l)%nat.
Proof.
  intros Hi Hs. induction l as [|x l IH]; [contradiction|]. unfold cost in *. rewrite !sum_cons. destruct Hi as [->|Hi].
  - assert (Hm : (sum (charge b sel) l <= sum (charge (S b) sel) l)%nat) by (apply sum_le; intros a _; unfold charge; destruct (sel a); lia).
    unfold charge at 1 3. rewrite Hs. lia.
  - specialize (IH Hi). unfold charge at 1 3. destruct (sel x); lia.
Qed.
Lemma cost_none b sel l : (forall e, In e l -> sel e = false) -> cost b sel l = 0%nat.
Proof.
  intros H. induction l as [|x l IH]; [reflexivity|]. unfold cost in *. rewrite sum_cons. unfold charge at 1.
  rewrite (H x (or_introl eq_refl)), IH; [reflexivity|]. intros e He. apply H. right. exact He.
Qed.

End Cost.

Section Visits.
Context {E : Env} {K V : Type} {KK : Key K}.
(** Entries with a given hash. *)
Definition cnt (h : N) (l : list (K * V)) : nat := length (filter (fun e => N.eqb (hash (ecls e)) h) l).
Lemma cnt_app h l l' : cnt h (l ++ l') = (cnt h l + cnt h l')%nat.
Proof. unfold cnt. rewrite filter_app, app_length. reflexivity. Qed.
Lemma cnt_all h l : (forall e, In e l -> hash (ecls e) = h) -> cnt h l = length l.
Proof.
  intros H. unfold cnt. f_equal. induction l as [|x l IH]; [reflexivity|]. cbn [filter].
  rewrite (proj2 (N.eqb_eq _ _) (H x (or_introl eq_refl))). f_equal. apply IH. intros e He. apply H. right. exact He.
Qed.
Definition fits (r : N -> nat) (l : list (K * V)) : Prop := forall h, (cnt h l <= r h)%nat.

Definition dvisit (n : dnode K V) : list (K * V) := m_visit (strip n).
Definition odvisit (o : option (dnode K V)) : list (K * V) := match o with Some c => dvisit c | None => [] end.
Definition lvisit (l : dlist K V) : list (K * V) := l_visit (strip_l l).
Definition xvisit (x : dnext K V) : list (K * V) := dvisit (dn_node x).

Lemma dvisit_C a bits values x : dvisit (DC a (BIA bits values x)) = flat_map dvisit values.
Proof. unfold dvisit. cbn [strip m_visit]. rewrite map_map, flat_map_concat_map. reflexivity. Qed.
Lemma dvisit_slots a bits values x : okv (max_ones fw) bits values ->
  dvisit (DC a (BIA bits values x)) = flat_map (fun i => odvisit (getv bits values i)) (range 0 (max_ones fw)).
Proof.
  intros Hok. rewrite dvisit_C. rewrite (values_slots _ _ _ Hok) at 1. rewrite flat_map_slots. reflexivity.
Qed.
Lemma okv_strip n bits (values : list (dnode K V)) : okv n bits (map strip values) -> okv n bits values.
Proof. intros [H1 H2]. split; [exact H1|]. rewrite H2. unfold lenN. rewrite map_length. reflexivity. Qed.

Lemma fits_slot r a bits values x i c : okv (max_ones fw) bits values -> getv bits values i = Some c ->
  fits r (dvisit (DC a (BIA bits values x))) -> fits r (dvisit c).
Proof.
  intros Hok Hg HF h. specialize (HF h). rewrite dvisit_C in HF. apply getv_in in Hg.
  induction values as [|v vs IH] in Hg, HF |- *; [contradiction|]. cbn [flat_map] in HF. rewrite cnt_app in HF.
  destruct Hg as [->|Hg]; [lia|]. apply IH; [exact Hg|lia].
Qed.

(** A subtree in a slot. *)
Lemma wf_kid d p a bits (values : list (dnode K V)) x : wf d p (strip (DC a (BIA bits values x))) ->
  off d < hbits /\ okv (max_ones fw) bits values /\
  forall i c, getv bits values i = Some c -> wf (d + 1) (p + i * 2 ^ off d) (strip c) /\ dvisit c <> [].
Proof.
  intros HW. cbn [strip] in HW. inversion HW as [| |d0 p0 b0 v0 x0 Ho Hp Hok Hne Hx Hch]; subst.
  split; [exact Ho|]. split; [apply okv_strip, Hok|]. intros i c Hg.
  assert (Hc : wf (d + 1) (p + i * 2 ^ off d) (strip c)).
  { apply Hch. rewrite TrieP.getv_map, Hg. reflexivity. }
  split; [exact Hc|]. apply (wf_nonempty _ _ _ Hc). lia.
Qed.
End Visits.

Section Levels.
Context {E : Env} (M : nat) (HM : forall b, levels 0 b -> (b <= M)%nat).
Definition lv (d : N) : nat := (M - N.to_nat d)%nat.
Lemma lv_S d : off d < hbits -> lv d = S (lv (d + 1)).
Proof.
  intros Ho. assert (H : (S (N.to_nat d) <= M)%nat).
  { apply HM. right. replace (0 + N.of_nat (S (N.to_nat d)) - 1) with d by lia. exact Ho. }
  unfold lv. lia.
Qed.
Lemma lv_levels d b : levels d b -> (b <= lv d)%nat.
Proof.
  intros [->|H]; [lia|]. destruct b as [|b]; [lia|]. assert (H1 : (N.to_nat d + S b <= M)%nat).
  { apply HM. right. replace (0 + N.of_nat (N.to_nat d + S b) - 1) with (d + N.of_nat (S b) - 1) by lia. exact H. }
  unfold lv. lia.
Qed.
End Levels.

(** * transform *)
Definition changes {A V R} (op : transform_op A V R) (a : A) : bool := match tcall op a with VUnchanged _ => false | _ => true end.

Section Transform.
Context {E : Env} {K V R : Type} {KK : Key K}.
Context (rdef : R) (rd : R -> R -> R).
Notation heap := (heap K V).
Implicit Types (w : heap).
Variable (op : transform_op (K * V) V R).

(** Nothing changes: nothing is allocated. *)
Lemma hs_transform_still (s : dleaf K V) w t w' : changes op (ds_entry s) = false -> hs_transform op s w = Ret (t, w') ->
  w' = w /\ exists r, t = HTU r.
Proof.
  unfold changes, hs_transform. destruct (tcall op (ds_entry s)); try discriminate. intros _ H. injection H as <- <-. eauto.
Qed.
Lemma hl_transform_still (l : dlist K V) : forall w t w', (forall e, In e (lvisit l) -> changes op e = false) ->
  hl_transform rd op l w = Ret (t, w') -> w' = w /\ exists r, t = HTU r.
Proof.
  assert (Hgen : forall l w t w', (forall e, In e (lvisit l) -> changes op e = false) ->
    (forall t w', match l with DLL _ _ _ n _ => hl_transform rd op n w | DLS _ _ _ s _ => hs_transform op s w end = Ret (t, w') ->
      w' = w /\ exists r, t = HTU r) -> hl_transform rd op l w = Ret (t, w') -> w' = w /\ exists r, t = HTU r).
  { clear l. intros l w t w' Hu Hn H. assert (He : changes op (dl_entry l) = false) by (apply Hu; destruct l; left; reflexivity).
    destruct op as [f|r|r]; [|destruct l; injection H as <- <-; eauto|discriminate].
    assert (H2 : (let* (next, w) := match l with DLL _ _ _ n _ => hl_transform rd (TGeneric f) n w | DLS _ _ _ s _ => hs_transform (TGeneric f) s w end in
      hl_transform_result rd l (tcall (TGeneric f) (dl_entry l)) next w) = Ret (t, w')) by (destruct l; exact H).
    apply bind_ret in H2. destruct H2 as ([next w1] & H1 & H2). destruct (Hn _ _ H1) as (-> & r & ->).
    unfold hl_transform_result in H2. destruct (dl_entry l) as [k v]. unfold changes in He. destruct (tcall (TGeneric f) (k, v)); try discriminate.
    injection H2 as <- <-. eauto. }
  induction l as [a k v n IH z|a k v s z]; intros w t w' Hu; apply Hgen; try exact Hu; intros t1 w1.
  - apply IH. intros e He. apply Hu. right. exact He.
  - apply hs_transform_still. apply Hu. right. destruct s. left. reflexivity.
Qed.

Lemma hloop_inv (P : hacc R -> Prop) (step : hacc R -> N -> heap -> outcome (hacc R * heap)) l : forall a w a' w',
  (forall i a w a' w', In i l -> P a -> step a i w = Ret (a', w') -> P a' /\ w' = w) -> P a -> hloop step l a w = Ret (a', w') -> P a' /\ w' = w.
Proof.
  induction l as [|i l IH]; intros a w a' w' Hs Ha H; cbn [hloop] in H; [injection H as <- <-; auto|].
  apply bind_ret in H. destruct H as ([a1 w1] & H1 & H). destruct (Hs i a w a1 w1 (or_introl eq_refl) Ha H1) as (Ha1 & ->).
  apply (IH a1 w a' w'); try assumption. intros j b v b' v' Hj. apply Hs. right. exact Hj.
Qed.
Lemma hrun_loop_ul st (step : hacc R -> N -> heap -> outcome (hacc R * heap)) w a' w' :
  (forall i a w a' w', i < max_ones fw -> ha_ul a = true -> step a i w = Ret (a', w') -> ha_ul a' = true /\ w' = w) ->
  hrun_loop rdef rd st step w = Ret (a', w') -> ha_ul a' = true /\ w' = w.
Proof.
  intros Hs H.
  assert (Hh : max_ones fw / 2 <= max_ones fw) by (apply N.div_le_upper_bound; lia).
  assert (Hl : forall x y w a' w', y <= max_ones fw -> hloop step (range x y) (hacc0 rdef) w = Ret (a', w') -> ha_ul a' = true /\ w' = w).
  { intros x y v a1 v1 Hy H1. refine (hloop_inv (fun a => ha_ul a = true) step (range x y) (hacc0 rdef) v a1 v1 _ eq_refl H1).
    intros i a2 v2 a3 v3 Hi. apply Hs. apply range_in in Hi. lia. }
  destruct st; cbn [hrun_loop] in H; [apply (Hl _ _ _ _ _ (N.le_refl _) H)|].
  unfold hhalves in H. apply bind_ret in H. destruct H as ([l w1] & H1 & H). apply bind_ret in H. destruct H as ([r w2] & H2 & H).
  apply bind_ret in H. destruct H as (bits & _ & H). injection H as <- <-.
  destruct (Hl _ _ _ _ _ Hh H1) as (Hul & ->). destruct (Hl _ _ _ _ _ (N.le_refl _) H2) as (Hur & ->).
  cbn [ha_ul]. rewrite Hul, Hur. auto.
Qed.
Lemma hpush_ul (a : hacc R) i n z (r : R) a' : hpush rd a i n z r = Ret a' -> ha_ul a' = ha_ul a.
Proof.
  unfold hpush. intros H. apply bind_ret in H. destruct H as (bit & _ & H). apply bind_ret in H. destruct H as (bits & _ & H).
  injection H as <-. reflexivity.
Qed.

Lemma h_transform_still st (n : dnode K V) : forall d p w t w', wf d p (strip n) ->
  (forall e, In e (dvisit n) -> changes op e = false) -> h_transform rdef rd st op n w = Ret (t, w') ->
  w' = w /\ (dvisit n <> [] -> exists r, t = HTU r).
Proof.
  induction n as [a bits values x IH|l|s] using dnode_ind'; intros d p w t w' HW Hu H; cbn [h_transform] in H.
  - destruct (wf_kid _ _ _ _ _ _ HW) as (Ho & Hok & Hkid).
    assert (Hsub : forall i c, getv bits values i = Some c -> forall e, In e (dvisit c) -> changes op e = false).
    { intros i c Hg e He. apply Hu. rewrite dvisit_C. apply in_flat_map. exists c. split; [eapply getv_in; exact Hg|exact He]. }
    destruct op as [f|r|r].
    + apply bind_ret in H. destruct H as ([acc w1] & H1 & H).
      apply hrun_loop_ul in H1. { destruct H1 as (Hl & ->). rewrite Hl in H. injection H as <- <-. eauto. }
      intros i a1 v a2 v' Hi Ha Hs. unfold hc_transform_step in Hs. rewrite bat_bit_index_slot in Hs by assumption. cbn [bind] in Hs.
      destruct (getv bits values i) as [c|] eqn:Hg; [|injection Hs as <- <-; auto].
      apply bind_ret in Hs. destruct Hs as ([t1 v1] & Hr & Hs).
      destruct (Hkid i c Hg) as (HWc & Hne). pose proof (proj1 (Forall_forall _ _) IH c (getv_in _ _ _ _ Hg)) as IHc.
      destruct (IHc _ _ _ _ _ HWc (Hsub i c Hg) Hr) as (-> & Hx). destruct (Hx Hne) as (r & ->).
      apply bind_ret in Hs. destruct Hs as (a3 & Ha3 & Hs). injection Hs as <- <-. split; [rewrite (hpush_ul _ _ _ _ _ _ Ha3); exact Ha|reflexivity].
    + injection H as <- <-. eauto.
    + injection H as <- <-. split; [reflexivity|]. intros Hne. destruct (dvisit _) as [|e l] eqn:Hd in Hne; [contradiction|].
      specialize (Hu e). rewrite Hd in Hu. specialize (Hu (or_introl eq_refl)). discriminate.
  - destruct (hl_transform_still l w t w') as (-> & Hr); [exact Hu|exact H|]. auto.
  - destruct (hs_transform_still s w t w') as (-> & Hr); [apply Hu; destruct s; left; reflexivity|exact H|]. auto.
Qed.
End Transform.

(** ** Lists and leaves *)
Section Lists.
Context {E : Env} {K V R : Type} {KK : Key K}.
Context (rd : R -> R -> R).
Notation heap := (heap K V).
Implicit Types (w : heap).

Lemma lvisit_len_LL a k v (n : dlist K V) z : length (lvisit (DLL a k v n z)) = S (length (lvisit n)).
Proof. reflexivity. Qed.
Lemma lvisit_len_LS a k v (s : dleaf K V) z : length (lvisit (DLS a k v s z)) = 2%nat.
Proof. reflexivity. Qed.
Lemma lvisit_len (l : dlist K V) : (2 <= length (lvisit l))%nat.
Proof. induction l as [a k v n IH z|a k v s z]; [rewrite lvisit_len_LL; lia|rewrite lvisit_len_LS; lia]. Qed.
Lemma lvisit_next (l : dlist K V) : length (lvisit l) = S (length (xvisit (dl_next l))).
Proof. destruct l as [a k v n z|a k v [b k' v'] z]; reflexivity. Qed.

Lemma hs_transform_within (op : transform_op (K * V) V R) s w : within w (hs_transform op s w) 1.
Proof. unfold hs_transform. destruct (tcall op (ds_entry s)); try wstep. apply as_t_within, new_s_within. Qed.
Lemma hl_transform_result_within (l : dlist K V) result (next : htres R) w : within w (hl_transform_result rd l result next w) 1.
Proof.
  unfold hl_transform_result. destruct (dl_entry l) as [k v].
  destruct result, next; try wstep; apply as_t_within; first [apply new_l_within|apply hn_cons_within].
Qed.
Lemma hl_transform_within (op : transform_op (K * V) V R) l : forall w, within w (hl_transform rd op l w) (length (lvisit l)).
Proof.
  induction l as [a k v n IH z|a k v s z]; intros w; (destruct op; cbn [hl_transform]; try wstep).
  - rewrite lvisit_len_LL, <- Nat.add_1_r. apply within_bind; [apply IH|]. intros t w' _. apply hl_transform_result_within.
  - rewrite lvisit_len_LS. apply (within_bind w _ _ 1 1); [apply hs_transform_within|]. intros t w' _. apply hl_transform_result_within.
Qed.
Lemma hn_transform_within (op : transform_op (K * V) V R) x w : within w (hn_transform rd op x w) (length (xvisit x)).
Proof. destruct x as [l|[a k v]]; [apply hl_transform_within|apply hs_transform_within]. Qed.
Lemma hn_transform_still (op : transform_op (K * V) V R) x w t w' : (forall e, In e (xvisit x) -> changes op e = false) ->
  hn_transform rd op x w = Ret (t, w') -> w' = w /\ exists r, t = HTU r.
Proof.
  intros Hu. destruct x as [l|s]; cbn [hn_transform]; [apply hl_transform_still; exact Hu|].
  apply hs_transform_still. apply Hu. destruct s. left. reflexivity.
Qed.

(** All entries of a leaf or list have one hash. *)
Definition one_hash (h : N) (x : dnext K V) : Prop := forall e, In e (xvisit x) -> hash (ecls e) = h.
Lemma wf_next d p x : wf d p (strip (dn_node x)) -> one_hash (hashk (dn_key x)) x /\ pre d (hashk (dn_key x)) = p.
Proof.
  intros HW. destruct x as [l|[a k v]]; cbn [dn_node strip] in HW; inversion HW as [d0 p0 s0 Hp|d0 p0 l0 hh HL Hp|]; subst.
  - destruct HL as (_ & _ & HH). assert (Hk : hashk (dn_key (DNL l)) = hh).
    { cbn [dn_key]. destruct (dl_entry l) as [k v] eqn:He. apply (HH (k, v)). destruct l; cbn in *; left; congruence. }
    rewrite Hk. split; [exact HH|reflexivity].
  - split; [|reflexivity]. intros e [<-|[]]. reflexivity.
Qed.
Lemma xvisit_ne (x : dnext K V) : xvisit x <> [].
Proof. destruct x as [[]|[]]; discriminate. Qed.

Context (wt : N -> nat).
(** One changed entry pays for the whole list. *)
Lemma pays b sel h x e : one_hash h x -> fits wt (xvisit x) -> In e (xvisit x) -> sel e = true -> (b + length (xvisit x) <= cost wt b sel (xvisit x))%nat.
Proof.
  intros Ho HF Hi Hs. pose proof (cost_in wt b sel _ e Hi Hs) as H. specialize (HF h). rewrite cnt_all in HF by exact Ho.
  rewrite (Ho e Hi) in H. lia.
Qed.
Lemma some_changes (sel : K * V -> bool) l : (forall e, In e l -> sel e = false) \/ exists e, In e l /\ sel e = true.
Proof.
  destruct (existsb sel l) eqn:Hx; [right; apply existsb_exists, Hx|left]. intros e He.
  destruct (sel e) eqn:Hs; [|reflexivity]. rewrite <- Hx. symmetry. apply existsb_exists. eauto.
Qed.
Lemma hn_transform_cost b (op : transform_op (K * V) V R) x h w : one_hash h x -> fits wt (xvisit x) ->
  within w (hn_transform rd op x w) (cost wt b (changes op) (xvisit x)).
Proof.
  intros Ho HF. destruct (some_changes (changes op) (xvisit x)) as [Hu|(e & Hi & Hs)].
  - intros t w' H. destruct (hn_transform_still _ _ _ _ _ Hu H) as (-> & _). lia.
  - eapply within_weak; [apply hn_transform_within|]. pose proof (pays b _ _ _ _ Ho HF Hi Hs). lia.
Qed.
End Lists.

Section TransformCost.
Context {E : Env} {K V R : Type} {KK : Key K}.
Context (rdef : R) (rd : R -> R -> R).
Context (M : nat) (HM : forall b, levels 0 b -> (b <= M)%nat) (wt : N -> nat).
Notation heap := (heap K V).
Implicit Types (w : heap).

Lemma h_transform_cost st (op : transform_op (K * V) V R) n : forall d p w, wf d p (strip n) -> fits wt (dvisit n) ->
  within w (h_transform rdef rd st op n w) (cost wt (lv M d) (changes op) (dvisit n)).
Proof.
  induction n as [a bits values x IH|l|s] using dnode_ind'; intros d p w HW HF.
  - destruct (some_changes (changes op) (dvisit (DC a (BIA bits values x)))) as [Hu|(e & Hi & Hs)].
    { intros t w' H. destruct (h_transform_still _ _ _ _ _ _ _ _ _ _ HW Hu H) as (-> & _). lia. }
    destruct (wf_kid _ _ _ _ _ _ HW) as (Ho & Hok & Hkid). rewrite (lv_S M HM d Ho).
    eapply within_weak; [|apply (cost_up wt (lv M (d + 1)) _ _ _ Hi Hs)].
    cbn [h_transform]. destruct op as [f|r|r]; try wstep. apply within_bind.
    + rewrite (dvisit_slots a bits values x Hok), cost_flat. apply hrun_loop_within. intros i acc v Hlt.
      unfold hc_transform_step. rewrite bat_bit_index_slot by assumption. cbn [bind].
      destruct (getv bits values i) as [c|] eqn:Hg; [|wstep]. destruct (Hkid i c Hg) as (HWc & _).
      pose proof (proj1 (Forall_forall _ _) IH c (getv_in _ _ _ _ Hg)) as IHc.
      eapply within_weak; [apply within_bind with (m := 0%nat); [apply (IHc _ _ _ HWc), (fits_slot _ _ _ _ _ _ _ Hok Hg HF)|]|cbn [odvisit]; lia].
      intros t v' _. destruct t; apply within_pure; intros a2 _; wstep.
    + intros acc w' _. destruct (ha_ul acc); [wstep|]. apply as_t_within, hfinish_within.
  - apply (hn_transform_cost rd wt (lv M d) op (DNL l) _ w (proj1 (wf_next d p (DNL l) HW)) HF).
  - apply (hn_transform_cost rd wt (lv M d) op (DNS s) _ w (proj1 (wf_next d p (DNS s) HW)) HF).
Qed.
End TransformCost.

(** * transmute *)
Section TransmuteLeaf.
Context {E : Env} {K V S X R : Type} {KK : Key K}.
Context (rd : R -> R -> R) (wt : N -> nat).
Notation heap := (heap S X).
Implicit Types (w : heap).

Lemma hk_nres_within (r : kres S X R) w : within w (hk_nres r w) 1.
Proof. destruct r; [apply new_s_within|apply within_ret]. Qed.
Lemma hl_transmute_result_within (r : kres S X R) (next : hnres R) w : within w (hl_transmute_result rd r next w) 1.
Proof. destruct r; [apply hn_cons_within|apply within_ret]. Qed.
Lemma hl_transmute_within (op : transmute_op (K * V) S X R) l : forall w, within w (hl_transmute rd op l w) (length (lvisit l)).
Proof.
  induction l as [a k v n IH z|a k v s z]; intros w; (destruct op; cbn [hl_transmute]; try wstep).
  - rewrite lvisit_len_LL, <- Nat.add_1_r. apply within_bind; [apply IH|]. intros t w' _. apply hl_transmute_result_within.
  - rewrite lvisit_len_LS. apply (within_bind w _ _ 1 1); [apply hk_nres_within|]. intros t w' _. apply hl_transmute_result_within.
Qed.
Lemma hn_transmute_within (op : transmute_op (K * V) S X R) x w : within w (hn_transmute rd op x w) (length (xvisit x)).
Proof. destruct x as [l|[a k v]]; [apply hl_transmute_within|apply hk_nres_within]. Qed.
Lemma hn_transmute_cost b (op : transmute_op (K * V) S X R) x h w : one_hash h x -> fits wt (xvisit x) ->
  within w (hn_transmute rd op x w) (cost wt b (fun _ => true) (xvisit x)).
Proof.
  intros Ho HF. eapply within_weak; [apply hn_transmute_within|]. destruct (xvisit x) as [|e l] eqn:Hx; [apply le_n|].
  rewrite <- Hx in *. assert (Hi : In e (xvisit x)) by (rewrite Hx; left; reflexivity).
  pose proof (pays wt b (fun _ => true) h x e Ho HF Hi eq_refl). lia.
Qed.

End TransmuteLeaf.

Section TransmuteCost.
Context {E : Env} {K V S X R : Type} {KK : Key K}.
Context (rdef : R) (rd : R -> R -> R).
Context (M : nat) (HM : forall b, levels 0 b -> (b <= M)%nat) (wt : N -> nat).
Notation heap := (heap S X).
Implicit Types (w : heap).
(** One cell more when there is nothing to pay for it. *)
Lemma h_transmute_cost1 (op : transmute_op (K * V) S X R) n : forall d p w, wf d p (strip n) -> fits wt (dvisit n) ->
  within w (h_transmute rdef rd op n w) (cost wt (lv M d) (fun _ => true) (dvisit n) + match dvisit n with [] => 1 | _ => 0 end).
Proof.
  induction n as [a bits values x IH|l|s] using dnode_ind'; intros d p w HW HF.
  - destruct (wf_kid _ _ _ _ _ _ HW) as (Ho & Hok & Hkid).
    apply within_weak with (cost wt (lv M (d + 1)) (fun _ => true) (dvisit (DC a (BIA bits values x))) + 1)%nat.
    2:{ rewrite (lv_S M HM d Ho). destruct (dvisit _) as [|e l]; [apply le_n|].
        pose proof (cost_up wt (lv M (d + 1)) (fun _ => true) (e :: l) e (or_introl eq_refl) eq_refl). lia. }
    cbn [h_transmute]. destruct op as [f|r]; try wstep. apply within_bind.
    + rewrite (dvisit_slots a bits values x Hok), cost_flat. apply hloop_within. intros i acc v Hlt. apply range_in in Hlt.
      unfold hc_transmute_step. rewrite bat_bit_index_slot by (assumption || lia). cbn [bind].
      destruct (getv bits values i) as [c|] eqn:Hg; [|wstep]. destruct (Hkid i c Hg) as (HWc & Hne).
      pose proof (proj1 (Forall_forall _ _) IH c (getv_in _ _ _ _ Hg)) as IHc.
      eapply within_weak; [apply within_bind with (m := 0%nat); [apply (IHc _ _ _ HWc), (fits_slot _ _ _ _ _ _ _ Hok Hg HF)|]|
        cbn [odvisit]; destruct (dvisit c); [contradiction|lia]].
      intros t v' _. apply within_pure; intros a2 _; wstep.
    + intros acc w' _. destruct (_ =? _); [|wstep]. apply hfinish_within.
  - eapply within_weak; [apply (hn_transmute_cost rd wt (lv M d) op (DNL l) _ w (proj1 (wf_next d p (DNL l) HW)) HF)|unfold xvisit; cbn [dn_node]; lia].
  - eapply within_weak; [apply (hn_transmute_cost rd wt (lv M d) op (DNS s) _ w (proj1 (wf_next d p (DNS s) HW)) HF)|unfold xvisit; cbn [dn_node]; lia].
Qed.
Lemma h_transmute_cost (op : transmute_op (K * V) S X R) n d p w : wf d p (strip n) -> fits wt (dvisit n) -> dvisit n <> [] ->
  within w (h_transmute rdef rd op n w) (cost wt (lv M d) (fun _ => true) (dvisit n)).
Proof.
  intros HW HF Hne. eapply within_weak; [apply (h_transmute_cost1 op n d p w HW HF)|]. destruct (dvisit n); [contradiction|lia].
Qed.
End TransmuteCost.
