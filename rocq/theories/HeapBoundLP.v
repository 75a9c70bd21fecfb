(** How many cells the joint operations allocate on leaves and lists. *)
From Coq Require Import NArith Arith List Bool Lia ZifyBool ZifyN ZifyNat Permutation.
From Verif Require Import Base Words WordsP Flag FlagP Bia BiaP Node Spec SpecP Inv NodeP InsertP TrieP Api Trans Transform Joint JointT JointLeafP
  Heap SpecH HeapP HeapOpP HeapCostP HeapBulk HeapBulkP HeapBoundP HeapBoundJP.
Import ListNotations.
Open Scope N_scope.

Lemma hrights_len {L W} n (r : dlist L W) e rights : hrights_loop n r r [e] = Ret rights -> (length rights <= length (lvisit r))%nat.
Proof.
  assert (Hd : forall n (r : dlist L W) acc rights, hrights_loop n r r acc = Ret rights -> length rights = S (length acc)).
  { clear. induction n as [|n IH]; intros r acc rights H; [discriminate|]. cbn [hrights_loop] in H. destruct (dl_next r) as [l|s] eqn:Hn.
    - exfalso. clear IH. revert acc H. generalize (dl_entry l) as e. induction n as [|n IH]; intros e acc H; [discriminate|].
      cbn [hrights_loop] in H. rewrite Hn in H. exact (IH _ _ H).
    - injection H as <-. rewrite app_length. cbn. lia. }
  intros H. rewrite (Hd _ _ _ _ H). cbn [length]. apply lvisit_len.
Qed.

Section Pair.
Context {E : Env} {K V L W : Type} {KK : Key K} {KL : Key L}.
Context (wt rl rr : N -> nat).
Context (Hwt : forall h, (2 * (rl h + rr h) <= wt h)%nat).
Context (selL : K * V -> bool) (selR : L * W -> bool).
Context (HP : paid selL selR).

(** Lists of one hash: both are paid for, twice. *)
Lemma pays2 b h (x : dnext K V) (y : dnext L W) : one_hash h x -> one_hash h y -> fits rl (xvisit x) -> fits rr (xvisit y) ->
  (2 * (length (xvisit x) + length (xvisit y)) <= cost wt b selL (xvisit x) + cost wt b selR (xvisit y))%nat.
Proof.
  intros Hx Hy HFx HFy. specialize (HFx h). specialize (HFy h). rewrite (cnt_all h _ Hx) in HFx. rewrite (cnt_all h _ Hy) in HFy. specialize (Hwt h).
  destruct HP as [Hs|Hs].
  - destruct (xvisit x) as [|e l] eqn:He; [destruct (xvisit_ne x He)|]. rewrite <- He in *.
    assert (Hi : In e (xvisit x)) by (rewrite He; left; reflexivity).
    pose proof (cost_in wt b selL _ e Hi (Hs e)) as H. rewrite (Hx e Hi) in H. lia.
  - destruct (xvisit y) as [|e l] eqn:He; [destruct (xvisit_ne y He)|]. rewrite <- He in *.
    assert (Hi : In e (xvisit y)) by (rewrite He; left; reflexivity).
    pose proof (cost_in wt b selR _ e Hi (Hs e)) as H. rewrite (Hy e Hi) in H. lia.
Qed.

Lemma cost_more {A B} {KA : Key A} b (sel : A * B -> bool) l e : In e l -> sel e = true -> (cost wt 0 sel l + b <= cost wt b sel l)%nat.
Proof.
  intros Hi Hs. induction b as [|b IH]; [lia|]. pose proof (cost_up wt b sel l e Hi Hs). lia.
Qed.
Lemma pays_lift b (x : dnext K V) (y : dnext L W) :
  (cost wt 0 selL (xvisit x) + cost wt 0 selR (xvisit y) + b <= cost wt b selL (xvisit x) + cost wt b selR (xvisit y))%nat.
Proof.
  pose proof (cost_le wt 0 b selL selL (xvisit x) ltac:(lia) (fun _ _ H => H)) as H1.
  pose proof (cost_le wt 0 b selR selR (xvisit y) ltac:(lia) (fun _ _ H => H)) as H2. destruct HP as [Hs|Hs].
  - destruct (xvisit x) as [|e l] eqn:He; [destruct (xvisit_ne x He)|]. pose proof (cost_more b selL (e :: l) e (or_introl eq_refl) (Hs e)). lia.
  - destruct (xvisit y) as [|e l] eqn:He; [destruct (xvisit_ne y He)|]. pose proof (cost_more b selR (e :: l) e (or_introl eq_refl) (Hs e)). lia.
Qed.

Lemma pair_pays b x y d p : wf d p (strip (dn_node x)) -> wf d p (strip (dn_node y)) -> fits rl (xvisit x) -> fits rr (xvisit y) ->
  (hashk (dn_key x) =? hashk (dn_key y)) = true ->
  (2 * (length (xvisit x) + length (xvisit y)) <= cost wt b selL (xvisit x) + cost wt b selR (xvisit y))%nat.
Proof.
  intros HWx HWy HFx HFy He. apply N.eqb_eq in He.
  apply (pays2 _ (hashk (dn_key x)) x y (proj1 (wf_next _ _ _ HWx))); try assumption.
  rewrite He. apply (proj1 (wf_next _ _ _ HWy)).
Qed.
End Pair.

Section Lift.
Context {E : Env} {K V L W : Type} {KK : Key K} {KL : Key L}.
Context (M : nat) (HM : forall b, levels 0 b -> (b <= M)%nat).
Lemma hlift_within {S X R} d p (x : dnext K V) (y : dnext L W) lf rf a b (z : R) (w : heap S X) :
  wf d p (strip (dn_node x)) -> wf d p (strip (dn_node y)) -> (hashk (dn_key x) =? hashk (dn_key y)) = false ->
  two_flags (dn_key x) (dn_key y) d = Ret (lf, rf) -> within w (hlift a lf b rf z w) (lv M d).
Proof.
  intros HWx HWy Hne Hfl. apply N.eqb_neq in Hne. pose proof (proj2 (wf_next _ _ _ HWx)) as Hpx. pose proof (proj2 (wf_next _ _ _ HWy)) as Hpy.
  assert (Hp : pre d (hashk (dn_key x)) = pre d (hashk (dn_key y))) by congruence.
  pose proof (neq_off d _ _ Hne (hashk_lt _) (hashk_lt _) Hp) as Ho.
  unfold two_flags in Hfl. rewrite !flag_at_ok in Hfl by exact Ho. cbn [bind unwrap] in Hfl. injection Hfl as <- <-.
  intros t w' H. unfold hlift in H. apply bind_ret in H. destruct H as ([c w1] & H1 & H). injection H as _ <-.
  destruct (hc_lift_len _ d _ _ _ _ _ _ _ _ _ Hne (hashk_lt _) (hashk_lt _) Hp (flag_for_at _ _ Ho) (flag_for_at _ _ Ho) H1) as (n & Hn & Hl).
  pose proof (lv_levels M HM d n Hl). lia.
Qed.
End Lift.

Lemma take_key_len {E : Env} {K L W} {KK : Key K} {KL : Key L} (k : K) (rights : list (L * W)) e rest :
  take_key k rights = Some (e, rest) -> (length rest <= length rights)%nat.
Proof.
  unfold take_key. destruct (position _ rights) as [i|]; [|discriminate]. intros H. apply swap_remove_perm in H.
  apply Permutation_length in H. cbn in H. lia.
Qed.

(** * transform_with_transmuted *)
Section TM.
Context {E : Env} {K V L W R : Type} {KK : Key K} {KL : Key L}.
Context (rd : R -> R -> R).
Context (both : transform_op ((K * V) * (L * W)) V R) (lop : transform_op (K * V) V R) (rop : transmute_op (L * W) K V R).
Notation heap := (heap K V).
Implicit Types (w : heap).

Lemma htm_s_impl_within s e w : within w (htm_s_impl rd both lop rop s e w) 2.
Proof.
  unfold htm_s_impl. destruct (keqb _ _).
  - destruct (tcall both _); try wstep. apply as_t_within. eapply within_weak; [apply new_s_within|lia].
  - destruct (tcall lop _), (mcall rop _); try wstep; cbn [hs_new alloc others noise quiet].
    + apply as_t_within. eapply within_weak; [apply new_l_within|lia].
    + apply as_t_within. intros t w' H. pose proof (new_l_within _ _ _ _ _ _ _ H) as Hn. rewrite len_snoc in Hn. lia.
    + apply as_t_within. eapply within_weak; [apply new_s_within|lia].
    + apply as_t_within. eapply within_weak; [apply new_s_within|lia].
Qed.

Lemma htm_l_impl_within l : forall rights w, within w (htm_l_impl rd both lop rop l rights w) (length (lvisit l) + 1).
Proof.
  assert (Hgen : forall l w n (o : outcome ((htres R * list (L * W)) * heap)), within w o n ->
    within w (let* (p, w) := o in
      let (next, rights) := (p : htres R * list (L * W)) in
      let (result, rights) := match take_key (fst (dl_entry l)) rights with
        | Some (e, rights) => (tcall both (dl_entry l, e), rights) | None => (tcall lop (dl_entry l), rights) end in
      let* (t, w) := hl_transform_result rd l result next w in Ret ((t, rights), w)) (n + 1)).
  { clear. intros l w n o Ho. apply within_bind; [exact Ho|]. intros [next rs] w' _.
    destruct (match take_key _ rs with Some _ => _ | None => _ end) as [result rs'].
    apply (within_bind _ _ _ 1 0); [apply hl_transform_result_within|]. intros t w2 _. wstep. }
  induction l as [a k v n IH z|a k v s z]; intros rights w; cbn [htm_l_impl].
  - rewrite lvisit_len_LL, <- (Nat.add_1_r (length _)). apply (Hgen (DLL a k v n z)). apply IH.
  - rewrite lvisit_len_LS. apply (Hgen (DLS a k v s z) w 2%nat).
    destruct (take_key _ rights) as [[e rs]|].
    + apply (within_bind _ _ _ 2 0); [apply htm_s_impl_within|]. intros t w' _. wstep.
    + apply (within_bind _ _ _ 2 0); [eapply within_weak; [apply hs_transform_within|lia]|]. intros t w' _. wstep.
Qed.
Lemma htm_l_impl_rights l : forall rights w t rs w', htm_l_impl rd both lop rop l rights w = Ret ((t, rs), w') -> (length rs <= length rights)%nat.
Proof.
  assert (Hgen : forall l (rights : list (L * W)) t rs w' (o : outcome ((htres R * list (L * W)) * heap)),
    (forall t rs w', o = Ret ((t, rs), w') -> (length rs <= length rights)%nat) ->
    (let* (p, w) := o in
      let (next, rights) := (p : htres R * list (L * W)) in
      let (result, rights) := match take_key (fst (dl_entry l)) rights with
        | Some (e, rights) => (tcall both (dl_entry l, e), rights) | None => (tcall lop (dl_entry l), rights) end in
      let* (t, w) := hl_transform_result rd l result next w in Ret ((t, rights), w)) = Ret ((t, rs), w') -> (length rs <= length rights)%nat).
  { clear. intros l rights t rs w' o Ho H. apply bind_ret in H. destruct H as ([[next rs1] w1] & H1 & H). specialize (Ho _ _ _ H1).
    destruct (take_key _ rs1) as [[e rs2]|] eqn:Ht; apply bind_ret in H; destruct H as ([t2 w2] & _ & H); injection H as _ <- _;
      [apply take_key_len in Ht; lia|exact Ho]. }
  induction l as [a k v n IH z|a k v s z]; intros rights w t rs w'; cbn [htm_l_impl].
  - apply (Hgen (DLL a k v n z)). apply IH.
  - apply (Hgen (DLS a k v s z)). intros t1 rs1 w1 H. destruct (take_key _ rights) as [[e rs2]|] eqn:Ht;
      apply bind_ret in H; destruct H as ([t2 w2] & _ & H); injection H as _ <- _; [apply take_key_len in Ht; exact Ht|lia].
Qed.
Lemma htm_rest_within l rights : forall next w, within w (htm_rest rd rop l rights next w) (length rights).
Proof.
  induction rights as [|e rights IH]; intros next w; cbn [htm_rest length]; [wstep|].
  apply (within_bind _ _ _ 1 (length rights)); [|intros t w' _; apply IH].
  destruct (mcall rop e); [apply ht_cons_within|wstep].
Qed.
Lemma htm_ls_impl_within l : forall r w, within w (htm_ls_impl rd both lop rop l r w) (length (lvisit l) + 1).
Proof.
  induction l as [a k v n IH z|a k v s z]; intros r w; cbn [htm_ls_impl].
  - destruct (keqb _ _).
    + apply within_weak with (length (lvisit n) + 1)%nat; [|rewrite lvisit_len_LL; lia]. apply within_bind; [apply (hl_transform_within rd lop n)|].
      intros t w' _. apply hl_transform_result_within.
    + rewrite lvisit_len_LL. apply within_weak with (length (lvisit n) + 1 + 1)%nat; [|lia]. apply within_bind; [apply IH|].
      intros t w' _. apply hl_transform_result_within.
  - rewrite lvisit_len_LS. destruct (keqb _ _).
    + apply within_weak with (1 + 1)%nat; [|lia]. apply within_bind; [apply (hs_transform_within lop s)|]. intros t w' _. apply hl_transform_result_within.
    + apply (within_bind _ _ _ 2 1); [apply htm_s_impl_within|]. intros t w' _. apply hl_transform_result_within.
Qed.

Context (M : nat) (HM : forall b, levels 0 b -> (b <= M)%nat) (wt rl rr : N -> nat).
Context (Hwt : forall h, (2 * (rl h + rr h) <= wt h)%nat).
Context (selL : K * V -> bool) (selR : L * W -> bool).
Context (HselL : forall e, changes lop e = true -> selL e = true) (HselR : forall e, selR e = true).

Lemma htm_apart_cost x y d p w : wf d p (strip (dn_node x)) -> wf d p (strip (dn_node y)) -> fits rl (xvisit x) -> fits rr (xvisit y) ->
  (hashk (dn_key x) =? hashk (dn_key y)) = false ->
  within w (htm_apart rd lop rop x y d w) (cost wt (lv M d) selL (xvisit x) + cost wt (lv M d) selR (xvisit y)).
Proof.
  intros HWx HWy HFx HFy Hne. eapply within_weak; [|apply (pays_lift wt selL selR (or_intror HselR) (lv M d) x y)].
  unfold htm_apart. rewrite <- Nat.add_assoc. apply within_bind.
  - eapply within_weak; [apply (hn_transform_cost rd wt 0 lop x _ w (proj1 (wf_next d p x HWx)))|].
    + intros h. specialize (HFx h). specialize (Hwt h). lia.
    + apply cost_le; [lia|]. intros e _. apply HselL.
  - intros t w1 _. apply within_bind.
    + eapply within_weak; [apply (hn_transmute_cost rd wt 0 rop y _ w1 (proj1 (wf_next d p y HWy)))|].
      * intros h. specialize (HFy h). specialize (Hwt h). lia.
      * apply cost_le; [lia|]. intros e _ _. apply HselR.
    + intros r w2 _. apply within_pure. intros [lf rf] Hfl.
      destruct (htout _ t); [|wstep]. destruct (hnnode r); [|wstep]. apply as_t_within. apply (hlift_within M HM d p x y); assumption.
Qed.

Lemma htm_lnode_cost l r d p w : wf d p (strip (DL l)) -> wf d p (strip (DL r)) -> fits rl (lvisit l) -> fits rr (lvisit r) ->
  within w (htm_lnode rd both lop rop l r d w) (cost wt (lv M d) selL (lvisit l) + cost wt (lv M d) selR (lvisit r)).
Proof.
  intros HWx HWy HFx HFy. unfold htm_lnode. destruct (_ =? _) eqn:Hh; [|exact (htm_apart_cost (DNL l) (DNL r) d p w HWx HWy HFx HFy Hh)].
  eapply within_weak; [|exact (pair_pays wt rl rr Hwt selL selR (or_intror HselR) (lv M d) (DNL l) (DNL r) d p HWx HWy HFx HFy Hh)]. change (xvisit (DNL l)) with (lvisit l). change (xvisit (DNL r)) with (lvisit r).
  apply within_pure. intros rights Hr. apply hrights_len in Hr.
  apply within_weak with (length (lvisit l) + 1 + length rights)%nat; [|pose proof (lvisit_len l); lia].
  apply within_bind; [apply htm_l_impl_within|]. intros [next rs] w' Hi. apply htm_l_impl_rights in Hi.
  eapply within_weak; [apply htm_rest_within|exact Hi].
Qed.
Lemma htm_lsnode_cost l s d p w : wf d p (strip (DL l)) -> wf d p (strip (DS s)) -> fits rl (lvisit l) -> fits rr (xvisit (DNS s)) ->
  within w (htm_lsnode rd both lop rop l s d w) (cost wt (lv M d) selL (lvisit l) + cost wt (lv M d) selR (xvisit (DNS s))).
Proof.
  intros HWx HWy HFx HFy. unfold htm_lsnode. destruct (_ =? _) eqn:Hh; [|exact (htm_apart_cost (DNL l) (DNS s) d p w HWx HWy HFx HFy Hh)].
  eapply within_weak; [|exact (pair_pays wt rl rr Hwt selL selR (or_intror HselR) (lv M d) (DNL l) (DNS s) d p HWx HWy HFx HFy Hh)]. change (xvisit (DNL l)) with (lvisit l).
  eapply within_weak; [apply htm_ls_impl_within|]. pose proof (lvisit_len l). lia.
Qed.
Lemma htm_snode_cost s t d p w : wf d p (strip (DS s)) -> wf d p (strip (DS t)) -> fits rl (xvisit (DNS s)) -> fits rr (xvisit (DNS t)) ->
  within w (htm_snode rd both lop rop s t d w) (cost wt (lv M d) selL (xvisit (DNS s)) + cost wt (lv M d) selR (xvisit (DNS t))).
Proof.
  intros HWx HWy HFx HFy. unfold htm_snode. destruct (_ =? _) eqn:Hh; [|exact (htm_apart_cost (DNS s) (DNS t) d p w HWx HWy HFx HFy Hh)].
  eapply within_weak; [|exact (pair_pays wt rl rr Hwt selL selR (or_intror HselR) (lv M d) (DNS s) (DNS t) d p HWx HWy HFx HFy Hh)].
  eapply within_weak; [apply htm_s_impl_within|]. destruct s, t. cbn. lia.
Qed.
End TM.

(** * transmute_with_transformed *)
Section MT.
Context {E : Env} {K V L W R : Type} {KK : Key K} {KL : Key L}.
Context (rd : R -> R -> R).
Context (both : transform_op ((K * V) * (L * W)) W R) (lop : transmute_op (K * V) L W R) (rop : transform_op (L * W) W R).
Notation heap := (heap L W).
Implicit Types (w : heap).

Lemma hmt_s_impl_within s e w : within w (hmt_s_impl rd both lop rop s e w) 2.
Proof.
  unfold hmt_s_impl. destruct (keqb _ _).
  - destruct (tcall both _); try wstep. apply as_t_within. eapply within_weak; [apply new_s_within|lia].
  - destruct (mcall lop _), (tcall rop _); try wstep; cbn [hs_new alloc others noise quiet].
    + apply as_t_within. eapply within_weak; [apply new_l_within|lia].
    + apply as_t_within. intros t w' H. pose proof (new_l_within _ _ _ _ _ _ _ H) as Hn. rewrite len_snoc in Hn. lia.
    + apply as_t_within. eapply within_weak; [apply new_s_within|lia].
    + apply as_t_within. eapply within_weak; [apply new_s_within|lia].
Qed.
Lemma hmt_hit_within s r (next : hnres R) w : within w (hmt_hit rd s r next w) 1.
Proof. unfold hmt_hit. destruct (ds_entry s) as [k v]. destruct r; try wstep; apply hn_cons_within. Qed.
Lemma hmt_miss_within s r (next : htres R) w : within w (hmt_miss rd s r next w) 1.
Proof.
  unfold hmt_miss. destruct r; [apply ht_cons_within|]. destruct next; [|wstep]. apply as_t_within, new_s_within.
Qed.
Lemma hmt_ls_impl_within l : forall r w, within w (hmt_ls_impl rd both lop rop l r w) (length (lvisit l) + 1).
Proof.
  induction l as [a k v n IH z|a k v s z]; intros r w; cbn [hmt_ls_impl].
  - destruct (keqb _ _).
    + apply within_weak with (length (lvisit n) + 1)%nat; [|rewrite lvisit_len_LL; lia]. apply within_bind; [apply (hl_transmute_within rd lop n)|].
      intros t w' _. apply as_t_within, hmt_hit_within.
    + rewrite lvisit_len_LL. apply within_weak with (length (lvisit n) + 1 + 1)%nat; [|lia]. apply within_bind; [apply IH|].
      intros t w' _. apply hmt_miss_within.
  - rewrite lvisit_len_LS. destruct (keqb _ _).
    + apply within_weak with (1 + 1)%nat; [|lia]. apply within_bind; [apply hk_nres_within|]. intros t w' _. apply as_t_within, hmt_hit_within.
    + apply (within_bind _ _ _ 2 1); [apply hmt_s_impl_within|]. intros t w' _. apply hmt_miss_within.
Qed.

Context (M : nat) (HM : forall b, levels 0 b -> (b <= M)%nat) (wt rl rr : N -> nat).
Context (Hwt : forall h, (2 * (rl h + rr h) <= wt h)%nat).
Context (selL : K * V -> bool) (selR : L * W -> bool).
Context (HselL : forall e, selL e = true) (HselR : forall e, changes rop e = true -> selR e = true).

Lemma hmt_apart_cost x y d p w : wf d p (strip (dn_node x)) -> wf d p (strip (dn_node y)) -> fits rl (xvisit x) -> fits rr (xvisit y) ->
  (hashk (dn_key x) =? hashk (dn_key y)) = false ->
  within w (hmt_apart rd lop rop x y d w) (cost wt (lv M d) selL (xvisit x) + cost wt (lv M d) selR (xvisit y)).
Proof.
  intros HWx HWy HFx HFy Hne. eapply within_weak; [|apply (pays_lift wt selL selR (or_introl HselL) (lv M d) x y)].
  unfold hmt_apart. rewrite <- Nat.add_assoc. apply within_bind.
  - eapply within_weak; [apply (hn_transmute_cost rd wt 0 lop x _ w (proj1 (wf_next d p x HWx)))|].
    + intros h. specialize (HFx h). specialize (Hwt h). lia.
    + apply cost_le; [lia|]. intros e _ _. apply HselL.
  - intros t w1 _. apply within_bind.
    + eapply within_weak; [apply (hn_transform_cost rd wt 0 rop y _ w1 (proj1 (wf_next d p y HWy)))|].
      * intros h. specialize (HFy h). specialize (Hwt h). lia.
      * apply cost_le; [lia|]. intros e _. apply HselR.
    + intros r w2 _. apply within_pure. intros [lf rf] Hfl.
      destruct (hnnode t); [|wstep]. destruct (htout _ r); [|wstep]. apply as_t_within. apply (hlift_within M HM d p x y); assumption.
Qed.
Lemma hmt_lsnode_cost l s d p w : wf d p (strip (DL l)) -> wf d p (strip (DS s)) -> fits rl (lvisit l) -> fits rr (xvisit (DNS s)) ->
  within w (hmt_lsnode rd both lop rop l s d w) (cost wt (lv M d) selL (lvisit l) + cost wt (lv M d) selR (xvisit (DNS s))).
Proof.
  intros HWx HWy HFx HFy. unfold hmt_lsnode. destruct (_ =? _) eqn:Hh; [|exact (hmt_apart_cost (DNL l) (DNS s) d p w HWx HWy HFx HFy Hh)].
  eapply within_weak; [|exact (pair_pays wt rl rr Hwt selL selR (or_introl HselL) (lv M d) (DNL l) (DNS s) d p HWx HWy HFx HFy Hh)].
  change (xvisit (DNL l)) with (lvisit l). eapply within_weak; [apply hmt_ls_impl_within|]. pose proof (lvisit_len l). lia.
Qed.
Lemma hmt_snode_cost s t d p w : wf d p (strip (DS s)) -> wf d p (strip (DS t)) -> fits rl (xvisit (DNS s)) -> fits rr (xvisit (DNS t)) ->
  within w (hmt_snode rd both lop rop s t d w) (cost wt (lv M d) selL (xvisit (DNS s)) + cost wt (lv M d) selR (xvisit (DNS t))).
Proof.
  intros HWx HWy HFx HFy. unfold hmt_snode. destruct (_ =? _) eqn:Hh; [|exact (hmt_apart_cost (DNS s) (DNS t) d p w HWx HWy HFx HFy Hh)].
  eapply within_weak; [|exact (pair_pays wt rl rr Hwt selL selR (or_introl HselL) (lv M d) (DNS s) (DNS t) d p HWx HWy HFx HFy Hh)].
  eapply within_weak; [apply hmt_s_impl_within|]. destruct s, t. cbn. lia.
Qed.
End MT.

(** * transmute_with_transmuted *)
Section MM.
Context {E : Env} {K V L W S X R : Type} {KK : Key K} {KL : Key L}.
Context (rd : R -> R -> R).
Context (both : transmute_op ((K * V) * (L * W)) S X R) (lop : transmute_op (K * V) S X R) (rop : transmute_op (L * W) S X R).
Notation heap := (heap S X).
Implicit Types (w : heap).

Lemma hmm_values_within s e w : within w (hmm_values rd both lop rop s e w) 2.
Proof.
  unfold hmm_values. destruct (keqb _ _); [eapply within_weak; [apply hk_nres_within|lia]|].
  destruct (mcall lop _), (mcall rop _); try wstep; cbn [hs_new alloc others noise quiet].
  - intros t w' H. pose proof (new_l_within _ _ _ _ _ _ _ H) as Hn. rewrite len_snoc in Hn. lia.
  - eapply within_weak; [apply new_s_within|lia].
  - eapply within_weak; [apply new_s_within|lia].
Qed.
Lemma hmm_l_impl_within l : forall rights w, within w (hmm_l_impl rd both lop rop l rights w) (length (lvisit l) + 1).
Proof.
  assert (Hgen : forall l w n (o : outcome ((hnres R * list (L * W)) * heap)), within w o n ->
    within w (let* (p, w) := o in
      let (next, rights) := (p : hnres R * list (L * W)) in
      let (result, rights) := match take_key (fst (dl_entry l)) rights with
        | Some (e, rights) => (mcall both (dl_entry l, e), rights) | None => (mcall lop (dl_entry l), rights) end in
      let* (t, w) := hl_transmute_result rd result next w in Ret ((t, rights), w)) (n + 1)).
  { clear. intros l w n o Ho. apply within_bind; [exact Ho|]. intros [next rs] w' _.
    destruct (match take_key _ rs with Some _ => _ | None => _ end) as [result rs'].
    apply (within_bind _ _ _ 1 0); [apply hl_transmute_result_within|]. intros t w2 _. wstep. }
  induction l as [a k v n IH z|a k v s z]; intros rights w; cbn [hmm_l_impl].
  - rewrite lvisit_len_LL, <- (Nat.add_1_r (length _)). apply (Hgen (DLL a k v n z)). apply IH.
  - rewrite lvisit_len_LS. apply (Hgen (DLS a k v s z) w 2%nat).
    destruct (take_key _ rights) as [[e rs]|].
    + apply (within_bind _ _ _ 2 0); [apply hmm_values_within|]. intros t w' _. wstep.
    + apply (within_bind _ _ _ 2 0); [eapply within_weak; [apply hk_nres_within|lia]|]. intros t w' _. wstep.
Qed.
Lemma hmm_l_impl_rights l : forall rights w t rs w', hmm_l_impl rd both lop rop l rights w = Ret ((t, rs), w') -> (length rs <= length rights)%nat.
Proof.
  assert (Hgen : forall l (rights : list (L * W)) t rs w' (o : outcome ((hnres R * list (L * W)) * heap)),
    (forall t rs w', o = Ret ((t, rs), w') -> (length rs <= length rights)%nat) ->
    (let* (p, w) := o in
      let (next, rights) := (p : hnres R * list (L * W)) in
      let (result, rights) := match take_key (fst (dl_entry l)) rights with
        | Some (e, rights) => (mcall both (dl_entry l, e), rights) | None => (mcall lop (dl_entry l), rights) end in
      let* (t, w) := hl_transmute_result rd result next w in Ret ((t, rights), w)) = Ret ((t, rs), w') -> (length rs <= length rights)%nat).
  { clear. intros l rights t rs w' o Ho H. apply bind_ret in H. destruct H as ([[next rs1] w1] & H1 & H). specialize (Ho _ _ _ H1).
    destruct (take_key _ rs1) as [[e rs2]|] eqn:Ht; apply bind_ret in H; destruct H as ([t2 w2] & _ & H); injection H as _ <- _;
      [apply take_key_len in Ht; lia|exact Ho]. }
  induction l as [a k v n IH z|a k v s z]; intros rights w t rs w'; cbn [hmm_l_impl].
  - apply (Hgen (DLL a k v n z)). apply IH.
  - apply (Hgen (DLS a k v s z)). intros t1 rs1 w1 H. destruct (take_key _ rights) as [[e rs2]|] eqn:Ht;
      apply bind_ret in H; destruct H as ([t2 w2] & _ & H); injection H as _ <- _; [apply take_key_len in Ht; exact Ht|lia].
Qed.
Lemma hmm_rest_within rights : forall next w, within w (hmm_rest rd rop rights next w) (length rights).
Proof.
  induction rights as [|e rights IH]; intros next w; cbn [hmm_rest length]; [wstep|].
  apply (within_bind _ _ _ 1 (length rights)); [|intros t w' _; apply IH].
  destruct (mcall rop e); [apply hn_cons_within|wstep].
Qed.
Lemma hmm_ls_impl_within l : forall r w, within w (hmm_ls_impl rd both lop rop l r w) (length (lvisit l) + 1).
Proof.
  induction l as [a k v n IH z|a k v s z]; intros r w; cbn [hmm_ls_impl].
  - destruct (keqb _ _).
    + apply within_weak with (length (lvisit n) + 1)%nat; [|rewrite lvisit_len_LL; lia]. apply within_bind; [apply (hl_transmute_within rd lop n)|].
      intros t w' _. apply hl_transmute_result_within.
    + rewrite lvisit_len_LL. apply within_weak with (length (lvisit n) + 1 + 1)%nat; [|lia]. apply within_bind; [apply IH|].
      intros t w' _. apply hl_transmute_result_within.
  - rewrite lvisit_len_LS. destruct (keqb _ _).
    + apply within_weak with (1 + 1)%nat; [|lia]. apply within_bind; [apply hk_nres_within|]. intros t w' _. apply hl_transmute_result_within.
    + apply (within_bind _ _ _ 2 1); [apply hmm_values_within|]. intros t w' _. apply hl_transmute_result_within.
Qed.

Context (M : nat) (HM : forall b, levels 0 b -> (b <= M)%nat) (wt rl rr : N -> nat).
Context (Hwt : forall h, (2 * (rl h + rr h) <= wt h)%nat).
Notation all := (fun _ => true).
Lemma hmm_apart_cost x y d p w : wf d p (strip (dn_node x)) -> wf d p (strip (dn_node y)) -> fits rl (xvisit x) -> fits rr (xvisit y) ->
  (hashk (dn_key x) =? hashk (dn_key y)) = false ->
  within w (hmm_apart rd lop rop x y d w) (cost wt (lv M d) all (xvisit x) + cost wt (lv M d) all (xvisit y)).
Proof.
  intros HWx HWy HFx HFy Hne. eapply within_weak; [|apply (pays_lift wt all all (or_introl (fun _ => eq_refl)) (lv M d) x y)].
  unfold hmm_apart. rewrite <- Nat.add_assoc. apply within_bind.
  - apply (hn_transmute_cost rd wt 0 lop x _ w (proj1 (wf_next d p x HWx))). intros h. specialize (HFx h). specialize (Hwt h). lia.
  - intros t w1 _. apply within_bind.
    + apply (hn_transmute_cost rd wt 0 rop y _ w1 (proj1 (wf_next d p y HWy))). intros h. specialize (HFy h). specialize (Hwt h). lia.
    + intros r w2 _. apply within_pure. intros [lf rf] Hfl.
      destruct (hnnode t); [|wstep]. destruct (hnnode r); [|wstep]. apply (hlift_within M HM d p x y); assumption.
Qed.
Lemma hmm_lnode_cost l r d p w : wf d p (strip (DL l)) -> wf d p (strip (DL r)) -> fits rl (lvisit l) -> fits rr (lvisit r) ->
  within w (hmm_lnode rd both lop rop l r d w) (cost wt (lv M d) all (lvisit l) + cost wt (lv M d) all (lvisit r)).
Proof.
  intros HWx HWy HFx HFy. unfold hmm_lnode. destruct (_ =? _) eqn:Hh; [|exact (hmm_apart_cost (DNL l) (DNL r) d p w HWx HWy HFx HFy Hh)].
  eapply within_weak; [|exact (pair_pays wt rl rr Hwt all all (or_introl (fun _ => eq_refl)) (lv M d) (DNL l) (DNL r) d p HWx HWy HFx HFy Hh)].
  change (xvisit (DNL l)) with (lvisit l). change (xvisit (DNL r)) with (lvisit r).
  apply within_pure. intros rights Hr. apply hrights_len in Hr.
  apply within_weak with (length (lvisit l) + 1 + length rights)%nat; [|pose proof (lvisit_len l); lia].
  apply within_bind; [apply hmm_l_impl_within|]. intros [next rs] w' Hi. apply hmm_l_impl_rights in Hi.
  eapply within_weak; [apply hmm_rest_within|exact Hi].
Qed.
Lemma hmm_lsnode_cost l s d p w : wf d p (strip (DL l)) -> wf d p (strip (DS s)) -> fits rl (lvisit l) -> fits rr (xvisit (DNS s)) ->
  within w (hmm_lsnode rd both lop rop l s d w) (cost wt (lv M d) all (lvisit l) + cost wt (lv M d) all (xvisit (DNS s))).
Proof.
  intros HWx HWy HFx HFy. unfold hmm_lsnode. destruct (_ =? _) eqn:Hh; [|exact (hmm_apart_cost (DNL l) (DNS s) d p w HWx HWy HFx HFy Hh)].
  eapply within_weak; [|exact (pair_pays wt rl rr Hwt all all (or_introl (fun _ => eq_refl)) (lv M d) (DNL l) (DNS s) d p HWx HWy HFx HFy Hh)].
  change (xvisit (DNL l)) with (lvisit l). eapply within_weak; [apply hmm_ls_impl_within|]. pose proof (lvisit_len l). lia.
Qed.
Lemma hmm_snode_cost s t d p w : wf d p (strip (DS s)) -> wf d p (strip (DS t)) -> fits rl (xvisit (DNS s)) -> fits rr (xvisit (DNS t)) ->
  within w (hmm_snode rd both lop rop s t d w) (cost wt (lv M d) all (xvisit (DNS s)) + cost wt (lv M d) all (xvisit (DNS t))).
Proof.
  intros HWx HWy HFx HFy. unfold hmm_snode. destruct (_ =? _) eqn:Hh; [|exact (hmm_apart_cost (DNS s) (DNS t) d p w HWx HWy HFx HFy Hh)].
  eapply within_weak; [|exact (pair_pays wt rl rr Hwt all all (or_introl (fun _ => eq_refl)) (lv M d) (DNS s) (DNS t) d p HWx HWy HFx HFy Hh)].
  eapply within_weak; [apply hmm_values_within|]. destruct s, t. cbn. lia.
Qed.
End MM.

(** * transform_with_transformed *)
Section TT.
Context {E : Env} {K V R : Type} {KK : Key K}.
Context (rd : R -> R -> R).
Context (both : joint_op (K * V) V R) (lop rop : transform_op (K * V) V R).
Notation heap := (heap K V).
Implicit Types (w : heap).

Lemma htt_s_impl_within s t w : within w (htt_s_impl rd both lop rop s t w) 2.
Proof.
  unfold htt_s_impl. destruct (ds_entry s) as [k v], (ds_entry t) as [rk rv]. destruct (keqb _ _).
  - destruct (jcall both _ _); try wstep. apply as_j_within. eapply within_weak; [apply new_s_within|lia].
  - destruct (tcall lop _), (tcall rop _); try wstep; cbn [hs_new alloc others noise quiet]; apply as_j_within;
      try (eapply within_weak; [apply new_l_within|lia]; fail); try (eapply within_weak; [apply new_s_within|lia]; fail).
    intros x w' H. pose proof (new_l_within _ _ _ _ _ _ _ H) as Hn. rewrite len_snoc in Hn. lia.
Qed.
Lemma new_ls_within k v e (r : R) w : within w (new_ls k v e r w) 2.
Proof.
  unfold new_ls. cbn [hs_new alloc others noise quiet]. intros x w' H. pose proof (new_l_within _ _ _ _ _ _ _ H) as Hn. rewrite len_snoc in Hn. lia.
Qed.
Ltac small := first [wstep | apply as_j_within; first [apply new_ls_within
  | eapply within_weak; [first [apply new_l_within|apply new_s_within|apply hn_cons_within]|lia]]].
Lemma hjj_within l r that next w : within w (hjj (R := R) rd l r that next w) 2.
Proof.
  unfold hjj. destruct (dl_entry l) as [k v].
  destruct r, next as [z|z|z|[n z|z]]; try small; apply within_pure; intros e _; small.
Qed.
Lemma hjt_within l r that next w : within w (hjt (R := R) rd l r that next w) 1.
Proof.
  unfold hjt. destruct (dl_entry l) as [k v]. destruct r, next as [z|[n z|z]]; try small.
Qed.
Lemma htj_within l r that next w : within w (htj (R := R) rd l r that next w) 1.
Proof.
  unfold htj. destruct (dl_entry l) as [k v]. destruct r, next as [z|z|z|n]; try small.
Qed.
Lemma htt_l_impl_within l : forall rights w, within w (htt_l_impl rd both lop rop l rights w) (2 * length (lvisit l) + 1).
Proof.
  assert (Hgen : forall l w n (o : outcome (((hjres R * list (K * V)) * option (K * V)) * heap)), within w o n ->
    within w (let* (q, w) := o in
      let '((next, rights), that) := (q : (hjres R * list (K * V)) * option (K * V)) in
      let (result, rights) := match take_key (fst (dl_entry l)) rights with
        | Some (e, rights) => (jcall both (dl_entry l) e, rights) | None => (v_left (tcall lop (dl_entry l)), rights) end in
      let* (t, w) := hjj rd l result that next w in Ret ((t, rights), w)) (n + 2)).
  { clear. intros l w n o Ho. apply within_bind; [exact Ho|]. intros [[next rs] that] w' _.
    destruct (match take_key _ rs with Some _ => _ | None => _ end) as [result rs'].
    apply (within_bind _ _ _ 2 0); [apply hjj_within|]. intros t w2 _. wstep. }
  induction l as [a k v n IH z|a k v s z]; intros rights w; cbn [htt_l_impl].
  - rewrite lvisit_len_LL. eapply within_weak; [apply (Hgen (DLL a k v n z))|].
    + apply (within_bind _ _ _ (2 * length (lvisit n) + 1) 0); [apply IH|]. intros t w' _. wstep.
    + lia.
  - rewrite lvisit_len_LS. eapply within_weak; [apply (Hgen (DLS a k v s z) w 3%nat)|lia].
    destruct (take_key _ rights) as [[e rs]|].
    + cbn [hs_new alloc others noise quiet]. intros t w' H. apply bind_ret in H. destruct H as ([t1 w1] & H1 & H). injection H as _ <-.
      pose proof (htt_s_impl_within _ _ _ _ _ H1) as Hn. rewrite len_snoc in Hn. lia.
    + apply (within_bind _ _ _ 3 0); [eapply within_weak; [apply hs_transform_within|lia]|]. intros t w' _. wstep.
Qed.
Lemma htt_l_impl_rights l : forall rights w t rs w', htt_l_impl rd both lop rop l rights w = Ret ((t, rs), w') -> (length rs <= length rights)%nat.
Proof.
  assert (Hgen : forall l (rights : list (K * V)) t rs w' (o : outcome (((hjres R * list (K * V)) * option (K * V)) * heap)),
    (forall t rs x w', o = Ret (((t, rs), x), w') -> (length rs <= length rights)%nat) ->
    (let* (q, w) := o in
      let '((next, rights), that) := (q : (hjres R * list (K * V)) * option (K * V)) in
      let (result, rights) := match take_key (fst (dl_entry l)) rights with
        | Some (e, rights) => (jcall both (dl_entry l) e, rights) | None => (v_left (tcall lop (dl_entry l)), rights) end in
      let* (t, w) := hjj rd l result that next w in Ret ((t, rights), w)) = Ret ((t, rs), w') -> (length rs <= length rights)%nat).
  { clear. intros l rights t rs w' o Ho H. apply bind_ret in H. destruct H as ([[[next rs1] that] w1] & H1 & H). specialize (Ho _ _ _ _ H1).
    destruct (take_key _ rs1) as [[e rs2]|] eqn:Ht; apply bind_ret in H; destruct H as ([t2 w2] & _ & H); injection H as _ <- _;
      [apply take_key_len in Ht; lia|exact Ho]. }
  induction l as [a k v n IH z|a k v s z]; intros rights w t rs w'; cbn [htt_l_impl].
  - apply (Hgen (DLL a k v n z)). intros t1 rs1 x w1 H. apply bind_ret in H. destruct H as ([[t2 rs2] w2] & H2 & H). injection H as _ <- _ _.
    exact (IH _ _ _ _ _ H2).
  - apply (Hgen (DLS a k v s z)). intros t1 rs1 x w1 H. destruct (take_key _ rights) as [[e rs2]|] eqn:Ht.
    + cbn [hs_new alloc others noise quiet] in H. apply bind_ret in H. destruct H as ([t2 w2] & _ & H). injection H as _ <- _ _. apply take_key_len in Ht. exact Ht.
    + apply bind_ret in H. destruct H as ([t2 w2] & _ & H). injection H as _ <- _ _. lia.
Qed.
Lemma htt_rest_within l rights : forall next w, within w (htt_rest rd rop l rights next w) (length rights).
Proof.
  induction rights as [|e rights IH]; intros next w; cbn [htt_rest length]; [wstep|].
  apply (within_bind _ _ _ 1 (length rights)); [|intros t w' _; apply IH].
  destruct (tcall rop e), next; small.
Qed.
Lemma htt_ls_impl_within l : forall r w, within w (htt_ls_impl rd both lop rop l r w) (length (lvisit l) + 1).
Proof.
  induction l as [a k v n IH z|a k v s z]; intros r w; cbn [htt_ls_impl].
  - destruct (keqb _ _).
    + apply within_weak with (length (lvisit n) + 1)%nat; [|rewrite lvisit_len_LL; lia]. apply within_bind; [apply (hl_transform_within rd lop n)|].
      intros t w' _. apply hjt_within.
    + rewrite lvisit_len_LL. apply within_weak with (length (lvisit n) + 1 + 1)%nat; [|lia]. apply within_bind; [apply IH|].
      intros t w' _. apply htj_within.
  - rewrite lvisit_len_LS. destruct (keqb _ _).
    + apply within_weak with (1 + 1)%nat; [|lia]. apply within_bind; [apply (hs_transform_within lop s)|]. intros t w' _. apply hjt_within.
    + apply (within_bind _ _ _ 2 1); [apply htt_s_impl_within|]. intros t w' _. apply htj_within.
Qed.

Context (M : nat) (HM : forall b, levels 0 b -> (b <= M)%nat) (wt rl rr : N -> nat).
Context (Hwt : forall h, (2 * (rl h + rr h) <= wt h)%nat).
Context (selL selR : K * V -> bool) (HP : paid selL selR).
Context (HselL : forall e, changes lop e = true -> selL e = true) (HselR : forall e, changes rop e = true -> selR e = true).
Lemma htt_apart_cost x y d p w : wf d p (strip (dn_node x)) -> wf d p (strip (dn_node y)) -> fits rl (xvisit x) -> fits rr (xvisit y) ->
  (hashk (dn_key x) =? hashk (dn_key y)) = false ->
  within w (htt_apart rd lop rop x y d w) (cost wt (lv M d) selL (xvisit x) + cost wt (lv M d) selR (xvisit y)).
Proof.
  intros HWx HWy HFx HFy Hne. eapply within_weak; [|apply (pays_lift wt selL selR HP (lv M d) x y)].
  unfold htt_apart. rewrite <- Nat.add_assoc. apply within_bind.
  - eapply within_weak; [apply (hn_transform_cost rd wt 0 lop x _ w (proj1 (wf_next d p x HWx)))|].
    + intros h. specialize (HFx h). specialize (Hwt h). lia.
    + apply cost_le; [lia|]. intros e _. apply HselL.
  - intros t w1 _. apply within_bind.
    + eapply within_weak; [apply (hn_transform_cost rd wt 0 rop y _ w1 (proj1 (wf_next d p y HWy)))|].
      * intros h. specialize (HFy h). specialize (Hwt h). lia.
      * apply cost_le; [lia|]. intros e _. apply HselR.
    + intros r w2 _. apply within_pure. intros [lf rf] Hfl.
      destruct (htout _ t); [|wstep]. destruct (htout _ r); [|wstep]. apply as_j_within. apply (hlift_within M HM d p x y); assumption.
Qed.
Lemma htt_lnode_cost l r d p w : wf d p (strip (DL l)) -> wf d p (strip (DL r)) -> fits rl (lvisit l) -> fits rr (lvisit r) ->
  within w (htt_lnode rd both lop rop l r d w) (cost wt (lv M d) selL (lvisit l) + cost wt (lv M d) selR (lvisit r)).
Proof.
  intros HWx HWy HFx HFy. unfold htt_lnode. destruct (_ =? _) eqn:Hh; [|exact (htt_apart_cost (DNL l) (DNL r) d p w HWx HWy HFx HFy Hh)].
  eapply within_weak; [|exact (pair_pays wt rl rr Hwt selL selR HP (lv M d) (DNL l) (DNL r) d p HWx HWy HFx HFy Hh)].
  change (xvisit (DNL l)) with (lvisit l). change (xvisit (DNL r)) with (lvisit r).
  apply within_pure. intros rights Hr. apply hrights_len in Hr.
  apply within_weak with (2 * length (lvisit l) + 1 + length rights)%nat; [|pose proof (lvisit_len r); lia].
  apply within_bind; [apply htt_l_impl_within|]. intros [next rs] w' Hi. apply htt_l_impl_rights in Hi.
  eapply within_weak; [apply htt_rest_within|exact Hi].
Qed.
Lemma htt_lsnode_cost l s d p w : wf d p (strip (DL l)) -> wf d p (strip (DS s)) -> fits rl (lvisit l) -> fits rr (xvisit (DNS s)) ->
  within w (htt_lsnode rd both lop rop l s d w) (cost wt (lv M d) selL (lvisit l) + cost wt (lv M d) selR (xvisit (DNS s))).
Proof.
  intros HWx HWy HFx HFy. unfold htt_lsnode. destruct (_ =? _) eqn:Hh; [|exact (htt_apart_cost (DNL l) (DNS s) d p w HWx HWy HFx HFy Hh)].
  eapply within_weak; [|exact (pair_pays wt rl rr Hwt selL selR HP (lv M d) (DNL l) (DNS s) d p HWx HWy HFx HFy Hh)].
  change (xvisit (DNL l)) with (lvisit l). eapply within_weak; [apply htt_ls_impl_within|]. pose proof (lvisit_len l). lia.
Qed.
Lemma htt_snode_cost s t d p w : wf d p (strip (DS s)) -> wf d p (strip (DS t)) -> fits rl (xvisit (DNS s)) -> fits rr (xvisit (DNS t)) ->
  within w (htt_snode rd both lop rop s t d w) (cost wt (lv M d) selL (xvisit (DNS s)) + cost wt (lv M d) selR (xvisit (DNS t))).
Proof.
  intros HWx HWy HFx HFy. unfold htt_snode. destruct (_ =? _) eqn:Hh; [|exact (htt_apart_cost (DNS s) (DNS t) d p w HWx HWy HFx HFy Hh)].
  eapply within_weak; [|exact (pair_pays wt rl rr Hwt selL selR HP (lv M d) (DNS s) (DNS t) d p HWx HWy HFx HFy Hh)].
  eapply within_weak; [apply htt_s_impl_within|]. destruct s, t. cbn. lia.
Qed.
End TT.
