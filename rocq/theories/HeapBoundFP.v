(** How many cells each joint operation allocates. *)
From Coq Require Import NArith Arith List Bool Lia ZifyBool ZifyN ZifyNat Permutation.
From Verif Require Import Base Words WordsP Flag FlagP Bia BiaP Node Spec SpecP Inv NodeP InsertP TrieP Api Trans Transform Joint JointT JointLeafP
  Heap SpecH HeapP HeapOpP HeapCostP HeapBulk HeapBulkP HeapBoundP HeapBoundJP HeapBoundLP.
Import ListNotations.
Open Scope N_scope.

Lemma extra_comm {A B C D} (n : list (A * B)) (r : list (C * D)) : extra n r = extra r n.
Proof. destruct n, r; reflexivity. Qed.
Lemma paid_comm {A B C D} (f : A * B -> bool) (g : C * D -> bool) : paid f g -> paid g f.
Proof. intros [H|H]; [right|left]; exact H. Qed.

Section Done.
Context {E : Env} {K V R : Type}.
Lemma htm_done_within (a : hacc R) (w : heap K V) : within w (htm_done a w) 1.
Proof. unfold htm_done. destruct (ha_ul a); [wstep|]. apply as_t_within, hfinish_within. Qed.
Lemma hmt_done_within (a : hacc R) (w : heap K V) : within w (hmt_done a w) 1.
Proof. unfold hmt_done. destruct (ha_ur a); [wstep|]. apply as_t_within, hfinish_within. Qed.
Lemma htt_done_within (a : hacc R) (w : heap K V) : within w (htt_done a w) 1.
Proof. unfold htt_done. destruct (ha_ul a), (ha_ur a); try wstep. apply as_j_within, hfinish_within. Qed.
End Done.

Lemma fits_wl {E : Env} {A B} {KA : Key A} (wt rl rr : N -> nat) (Hwt : forall h, (2 * (rl h + rr h) <= wt h)%nat) (l : list (A * B)) :
  fits rl l -> fits wt l.
Proof. intros H h. specialize (H h). specialize (Hwt h). lia. Qed.
Lemma fits_wr {E : Env} {A B} {KA : Key A} (wt rl rr : N -> nat) (Hwt : forall h, (2 * (rl h + rr h) <= wt h)%nat) (l : list (A * B)) :
  fits rr l -> fits wt l.
Proof. intros H h. specialize (H h). specialize (Hwt h). lia. Qed.
Lemma Hwt_flip (wt rl rr : N -> nat) (Hwt : forall h, (2 * (rl h + rr h) <= wt h)%nat) h : (2 * (rr h + rl h) <= wt h)%nat.
Proof. specialize (Hwt h). lia. Qed.

Section TM.
Context {E : Env} {K V L W R : Type} {KK : Key K} {KL : Key L}.
Context (rdef : R) (rd : R -> R -> R) (st : strategy).
Context (M : nat) (HM : forall b, levels 0 b -> (b <= M)%nat) (wt rl rr : N -> nat).
Context (Hwt : forall h, (2 * (rl h + rr h) <= wt h)%nat).
Context (both : transform_op ((K * V) * (L * W)) V R) (lop : transform_op (K * V) V R) (rop : transmute_op (L * W) K V R).
Context (selL : K * V -> bool) (selR : L * W -> bool).
Context (HselL : forall e, changes lop e = true -> selL e = true) (HselR : forall e, selR e = true).

Lemma htm_leaf_cost : leaf_fits (htm_leaf rd both lop rop) M wt rl rr selL selR.
Proof.
  intros x y d p w HWx HWy HFx HFy. destruct x as [l|s], y as [r|t]; cbn [htm_leaf dn_node].
  - apply (htm_lnode_cost rd both lop rop M HM wt rl rr Hwt selL selR HselL HselR l r d p w); assumption.
  - apply (htm_lsnode_cost rd both lop rop M HM wt rl rr Hwt selL selR HselL HselR l t d p w); assumption.
  - rewrite Nat.add_comm. apply (hmt_lsnode_cost rd (tflip both) rop lop M HM wt rr rl (Hwt_flip wt rl rr Hwt) selR selL HselR HselL r s d p w); assumption.
  - apply (htm_snode_cost rd both lop rop M HM wt rl rr Hwt selL selR HselL HselR s t d p w); assumption.
Qed.
Lemma htm_lone_cost : lone_fits (htm_lone rdef rd st lop) M wt rl selL.
Proof.
  intros n d p w HW HF _. eapply within_weak; [apply (h_transform_cost rdef rd M HM wt st lop n d p w HW (fits_wl wt rl rr Hwt _ HF))|].
  apply cost_le; [lia|]. intros e _. apply HselL.
Qed.
Lemma htm_rone_cost : rone_fits (htm_rone rdef rd rop) M wt rr selR.
Proof.
  intros n d p w HW HF Hne. apply as_t_within. eapply within_weak; [apply (h_transmute_cost rdef rd M HM wt rop n d p w HW (fits_wr wt rl rr Hwt _ HF) Hne)|].
  apply cost_le; [lia|]. intros e _ _. apply HselR.
Qed.
Lemma htm_tree_leaf_cost : tree_leaf_fits M wt rl rr selL selR (htm_tree_leaf rdef rd st both lop rop).
Proof.
  intros x n d p w HW HWx HF HFx.
  apply (h_leaf_cost rdef rd _ _ _ _ _ M HM wt rl rr selL selR htm_lone_cost htm_rone_cost htm_done_within htm_leaf_cost (or_intror HselR) x n d p w); assumption.
Qed.
End TM.

Section MT.
Context {E : Env} {K V L W R : Type} {KK : Key K} {KL : Key L}.
Context (rdef : R) (rd : R -> R -> R) (st : strategy).
Context (M : nat) (HM : forall b, levels 0 b -> (b <= M)%nat) (wt rl rr : N -> nat).
Context (Hwt : forall h, (2 * (rl h + rr h) <= wt h)%nat).
Context (both : transform_op ((K * V) * (L * W)) W R) (lop : transmute_op (K * V) L W R) (rop : transform_op (L * W) W R).
Context (selL : K * V -> bool) (selR : L * W -> bool).
Context (HselL : forall e, selL e = true) (HselR : forall e, changes rop e = true -> selR e = true).

Lemma hmt_leaf_cost : leaf_fits (hmt_leaf rd both lop rop) M wt rl rr selL selR.
Proof.
  intros x y d p w HWx HWy HFx HFy. destruct x as [l|s], y as [r|t]; cbn [hmt_leaf dn_node].
  - rewrite Nat.add_comm. apply (htm_lnode_cost rd (tflip both) rop lop M HM wt rr rl (Hwt_flip wt rl rr Hwt) selR selL HselR HselL r l d p w); assumption.
  - apply (hmt_lsnode_cost rd both lop rop M HM wt rl rr Hwt selL selR HselL HselR l t d p w); assumption.
  - rewrite Nat.add_comm. apply (htm_lsnode_cost rd (tflip both) rop lop M HM wt rr rl (Hwt_flip wt rl rr Hwt) selR selL HselR HselL r s d p w); assumption.
  - apply (hmt_snode_cost rd both lop rop M HM wt rl rr Hwt selL selR HselL HselR s t d p w); assumption.
Qed.
Lemma hmt_lone_cost : lone_fits (hmt_lone rdef rd lop) M wt rl selL.
Proof.
  intros n d p w HW HF Hne. apply as_t_within. eapply within_weak; [apply (h_transmute_cost rdef rd M HM wt lop n d p w HW (fits_wl wt rl rr Hwt _ HF) Hne)|].
  apply cost_le; [lia|]. intros e _ _. apply HselL.
Qed.
Lemma hmt_rone_cost : rone_fits (hmt_rone rdef rd st rop) M wt rr selR.
Proof.
  intros n d p w HW HF _. eapply within_weak; [apply (h_transform_cost rdef rd M HM wt st rop n d p w HW (fits_wr wt rl rr Hwt _ HF))|].
  apply cost_le; [lia|]. intros e _. apply HselR.
Qed.
Lemma hmt_tree_leaf_cost : tree_leaf_fits M wt rl rr selL selR (hmt_tree_leaf rdef rd st both lop rop).
Proof.
  intros x n d p w HW HWx HF HFx.
  apply (h_leaf_cost rdef rd _ _ _ _ _ M HM wt rl rr selL selR hmt_lone_cost hmt_rone_cost hmt_done_within hmt_leaf_cost (or_introl HselL) x n d p w); assumption.
Qed.
End MT.

Section Mixed2.
Context {E : Env} {K V L W R : Type} {KK : Key K} {KL : Key L}.
Context (rdef : R) (rd : R -> R -> R) (st : strategy).
Context (M : nat) (HM : forall b, levels 0 b -> (b <= M)%nat) (wt rl rr : N -> nat).
Context (Hwt : forall h, (2 * (rl h + rr h) <= wt h)%nat).
Context (selL : K * V -> bool) (selR : L * W -> bool).

Lemma h_tm_cost (both : transform_op ((K * V) * (L * W)) V R) lop (rop : transmute_op (L * W) K V R) n right d p w :
  (forall e, changes lop e = true -> selL e = true) -> (forall e, selR e = true) ->
  wf d p (strip n) -> wf d p (strip right) -> fits rl (dvisit n) -> fits rr (dvisit right) ->
  within w (h_tm rdef rd st both lop rop n right d w)
    (cost wt (lv M d) selL (dvisit n) + cost wt (lv M d) selR (dvisit right) + extra (dvisit n) (dvisit right)).
Proof.
  intros HselL HselR. apply (h_joint_cost rdef rd _ _ _ _ _ M HM wt rl rr selL selR _ _ None Sequential).
  - exact (htm_lone_cost rdef rd st M HM wt rl rr Hwt lop selL HselL).
  - exact (htm_rone_cost rdef rd M HM wt rl rr Hwt rop selR HselR).
  - intros a v. apply htm_done_within.
  - exact (htm_leaf_cost rd M HM wt rl rr Hwt both lop rop selL selR HselL HselR).
  - exact (htm_tree_leaf_cost rdef rd st M HM wt rl rr Hwt both lop rop selL selR HselL HselR).
  - intros x m d' p' w' HWx HW HFx HF. rewrite extra_comm, (Nat.add_comm (cost _ _ selL _)).
    apply (hmt_tree_leaf_cost rdef rd st M HM wt rr rl (Hwt_flip wt rl rr Hwt) (tflip both) rop lop selR selL HselR HselL x m d' p' w'); assumption.
  - right. exact HselR.
Qed.
Lemma h_mt_cost (both : transform_op ((K * V) * (L * W)) W R) (lop : transmute_op (K * V) L W R) rop n right d p w :
  (forall e, selL e = true) -> (forall e, changes rop e = true -> selR e = true) ->
  wf d p (strip n) -> wf d p (strip right) -> fits rl (dvisit n) -> fits rr (dvisit right) ->
  within w (h_mt rdef rd st both lop rop n right d w)
    (cost wt (lv M d) selL (dvisit n) + cost wt (lv M d) selR (dvisit right) + extra (dvisit n) (dvisit right)).
Proof.
  intros HselL HselR. apply (h_joint_cost rdef rd _ _ _ _ _ M HM wt rl rr selL selR _ _ None Sequential).
  - exact (hmt_lone_cost rdef rd M HM wt rl rr Hwt lop selL HselL).
  - exact (hmt_rone_cost rdef rd st M HM wt rl rr Hwt rop selR HselR).
  - intros a v. apply hmt_done_within.
  - exact (hmt_leaf_cost rd M HM wt rl rr Hwt both lop rop selL selR HselL HselR).
  - exact (hmt_tree_leaf_cost rdef rd st M HM wt rl rr Hwt both lop rop selL selR HselL HselR).
  - intros x m d' p' w' HWx HW HFx HF. rewrite extra_comm, (Nat.add_comm (cost _ _ selL _)).
    apply (htm_tree_leaf_cost rdef rd st M HM wt rr rl (Hwt_flip wt rl rr Hwt) (tflip both) rop lop selR selL HselR HselL x m d' p' w'); assumption.
  - left. exact HselL.
Qed.
End Mixed2.

Section MM.
Context {E : Env} {K V L W S X R : Type} {KK : Key K} {KL : Key L}.
Context (rdef : R) (rd : R -> R -> R).
Context (M : nat) (HM : forall b, levels 0 b -> (b <= M)%nat) (wt rl rr : N -> nat).
Context (Hwt : forall h, (2 * (rl h + rr h) <= wt h)%nat).
Context (both : transmute_op ((K * V) * (L * W)) S X R) (lop : transmute_op (K * V) S X R) (rop : transmute_op (L * W) S X R).
Notation all := (fun _ => true).

Lemma hmm_leaf_cost : leaf_fits (hmm_leaf rd both lop rop) M wt rl rr all all.
Proof.
  intros x y d p w HWx HWy HFx HFy. destruct x as [l|s], y as [r|t]; cbn [hmm_leaf dn_node].
  - apply (hmm_lnode_cost rd both lop rop M HM wt rl rr Hwt l r d p w); assumption.
  - apply (hmm_lsnode_cost rd both lop rop M HM wt rl rr Hwt l t d p w); assumption.
  - rewrite Nat.add_comm. apply (hmm_lsnode_cost rd (mflip both) rop lop M HM wt rr rl (Hwt_flip wt rl rr Hwt) r s d p w); assumption.
  - apply (hmm_snode_cost rd both lop rop M HM wt rl rr Hwt s t d p w); assumption.
Qed.
Lemma hmm_lone_cost : lone_fits (h_transmute rdef rd lop) M wt rl all.
Proof. intros n d p w HW HF Hne. apply (h_transmute_cost rdef rd M HM wt lop n d p w HW (fits_wl wt rl rr Hwt _ HF) Hne). Qed.
Lemma hmm_rone_cost : rone_fits (h_transmute rdef rd rop) M wt rr all.
Proof. intros n d p w HW HF Hne. apply (h_transmute_cost rdef rd M HM wt rop n d p w HW (fits_wr wt rl rr Hwt _ HF) Hne). Qed.
Lemma hmm_tree_leaf_cost : tree_leaf_fits M wt rl rr all all (hmm_tree_leaf rdef rd both lop rop).
Proof.
  intros x n d p w HW HWx HF HFx.
  apply (h_leaf_cost rdef rd _ _ _ _ _ M HM wt rl rr all all hmm_lone_cost hmm_rone_cost hfinish_within hmm_leaf_cost (or_introl (fun _ => eq_refl)) x n d p w); assumption.
Qed.
End MM.

Section MM2.
Context {E : Env} {K V L W S X R : Type} {KK : Key K} {KL : Key L}.
Context (rdef : R) (rd : R -> R -> R).
Context (M : nat) (HM : forall b, levels 0 b -> (b <= M)%nat) (wt rl rr : N -> nat).
Context (Hwt : forall h, (2 * (rl h + rr h) <= wt h)%nat).
Notation all := (fun _ => true).
Lemma h_mm_cost (both : transmute_op ((K * V) * (L * W)) S X R) (lop : transmute_op (K * V) S X R) (rop : transmute_op (L * W) S X R) n right d p w :
  wf d p (strip n) -> wf d p (strip right) -> fits rl (dvisit n) -> fits rr (dvisit right) ->
  within w (h_mm rdef rd both lop rop n right d w)
    (cost wt (lv M d) all (dvisit n) + cost wt (lv M d) all (dvisit right) + extra (dvisit n) (dvisit right)).
Proof.
  apply (h_joint_cost rdef rd _ _ _ _ _ M HM wt rl rr all all _ _ None Sequential).
  - exact (hmm_lone_cost rdef rd M HM wt rl rr Hwt lop).
  - exact (hmm_rone_cost rdef rd M HM wt rl rr Hwt rop).
  - intros a v. apply hfinish_within.
  - exact (hmm_leaf_cost rd M HM wt rl rr Hwt both lop rop).
  - exact (hmm_tree_leaf_cost rdef rd M HM wt rl rr Hwt both lop rop).
  - intros x m d' p' w' HWx HW HFx HF. rewrite extra_comm, (Nat.add_comm (cost _ _ _ (dvisit (dn_node x)))).
    apply (hmm_tree_leaf_cost rdef rd M HM wt rr rl (Hwt_flip wt rl rr Hwt) (mflip both) rop lop x m d' p' w'); assumption.
  - left. intros e. reflexivity.
Qed.
End MM2.

Section TT.
Context {E : Env} {K V R : Type} {KK : Key K}.
Context (rdef : R) (rd : R -> R -> R) (st : strategy).
Context (M : nat) (HM : forall b, levels 0 b -> (b <= M)%nat) (wt rl rr : N -> nat).
Context (Hwt : forall h, (2 * (rl h + rr h) <= wt h)%nat).
Context (both : joint_op (K * V) V R) (lop rop : transform_op (K * V) V R).
Context (selL selR : K * V -> bool) (HP : paid selL selR).
Context (HselL : forall e, changes lop e = true -> selL e = true) (HselR : forall e, changes rop e = true -> selR e = true).

Lemma htt_leaf_cost : leaf_fits (htt_leaf rd both lop rop) M wt rl rr selL selR.
Proof.
  intros x y d p w HWx HWy HFx HFy. destruct x as [l|s], y as [r|t]; cbn [htt_leaf dn_node].
  - apply (htt_lnode_cost rd both lop rop M HM wt rl rr Hwt selL selR HP HselL HselR l r d p w); assumption.
  - apply (htt_lsnode_cost rd both lop rop M HM wt rl rr Hwt selL selR HP HselL HselR l t d p w); assumption.
  - rewrite Nat.add_comm. apply as_flip_within.
    apply (htt_lsnode_cost rd (jflip both) rop lop M HM wt rr rl (Hwt_flip wt rl rr Hwt) selR selL (paid_comm _ _ HP) HselR HselL r s d p w); assumption.
  - apply (htt_snode_cost rd both lop rop M HM wt rl rr Hwt selL selR HP HselL HselR s t d p w); assumption.
Qed.
Lemma htt_lone_cost : lone_fits (htt_lone rdef rd st lop) M wt rl selL.
Proof.
  intros n d p w HW HF _. unfold htt_lone. rewrite <- (Nat.add_0_r (cost _ _ _ _)). apply within_bind; [|intros t w' _; wstep].
  eapply within_weak; [apply (h_transform_cost rdef rd M HM wt st lop n d p w HW (fits_wl wt rl rr Hwt _ HF))|].
  apply cost_le; [lia|]. intros e _. apply HselL.
Qed.
Lemma htt_rone_cost : rone_fits (htt_rone rdef rd st rop) M wt rr selR.
Proof.
  intros n d p w HW HF _. unfold htt_rone. rewrite <- (Nat.add_0_r (cost _ _ _ _)). apply within_bind; [|intros t w' _; wstep].
  eapply within_weak; [apply (h_transform_cost rdef rd M HM wt st rop n d p w HW (fits_wr wt rl rr Hwt _ HF))|].
  apply cost_le; [lia|]. intros e _. apply HselR.
Qed.
Lemma htt_tree_leaf_cost : tree_leaf_fits M wt rl rr selL selR (htt_tree_leaf rdef rd st both lop rop).
Proof.
  intros x n d p w HW HWx HF HFx.
  apply (h_leaf_cost rdef rd _ _ _ _ _ M HM wt rl rr selL selR htt_lone_cost htt_rone_cost htt_done_within htt_leaf_cost HP x n d p w); assumption.
Qed.
End TT.

Section TT2.
Context {E : Env} {K V R : Type} {KK : Key K}.
Context (rdef : R) (rd : R -> R -> R) (st : strategy).
Context (M : nat) (HM : forall b, levels 0 b -> (b <= M)%nat) (wt rl rr : N -> nat).
Context (Hwt : forall h, (2 * (rl h + rr h) <= wt h)%nat).
Lemma h_tt_cost (both : joint_op (K * V) V R) (lop rop : transform_op (K * V) V R) (selL selR : K * V -> bool) n right d p w :
  paid selL selR -> (forall e, changes lop e = true -> selL e = true) -> (forall e, changes rop e = true -> selR e = true) ->
  wf d p (strip n) -> wf d p (strip right) -> fits rl (dvisit n) -> fits rr (dvisit right) ->
  within w (h_tt rdef rd st both lop rop n right d w)
    (cost wt (lv M d) selL (dvisit n) + cost wt (lv M d) selR (dvisit right) + extra (dvisit n) (dvisit right)).
Proof.
  intros HP HselL HselR. apply (h_joint_cost rdef rd _ _ _ _ _ M HM wt rl rr selL selR).
  - exact (htt_lone_cost rdef rd st M HM wt rl rr Hwt lop selL HselL).
  - exact (htt_rone_cost rdef rd st M HM wt rl rr Hwt rop selR HselR).
  - intros a v. apply htt_done_within.
  - exact (htt_leaf_cost rd M HM wt rl rr Hwt both lop rop selL selR HP HselL HselR).
  - exact (htt_tree_leaf_cost rdef rd st M HM wt rl rr Hwt both lop rop selL selR HP HselL HselR).
  - intros x m d' p' w' HWx HW HFx HF. rewrite extra_comm, (Nat.add_comm (cost _ _ selL _)). unfold htt_leaf_tree. apply as_flip_within.
    apply (htt_tree_leaf_cost rdef rd st M HM wt rr rl (Hwt_flip wt rl rr Hwt) (jflip both) rop lop selR selL (paid_comm _ _ HP) HselR HselL x m d' p' w'); assumption.
  - exact HP.
Qed.
End TT2.
