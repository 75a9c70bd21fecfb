(** How many cells the joint traversals allocate. *)
From Coq Require Import NArith Arith List Bool Lia ZifyBool ZifyN ZifyNat Permutation.
From Verif Require Import Base Words WordsP Flag FlagP Bia BiaP Node Spec SpecP Inv NodeP InsertP TrieP Api Trans Transform Joint JointT
  Heap SpecH HeapP HeapOpP HeapCostP HeapBulk HeapBulkP HeapBoundP.
Import ListNotations.
Open Scope N_scope.

Lemma sum_one (j : N) c l : NoDup l -> (sum (fun i => if N.eqb i j then c else 0) l <= c)%nat.
Proof.
  induction 1 as [|i l Hn Hd IH]; [apply Nat.le_0_l|]. rewrite sum_cons. destruct (N.eqb_spec i j) as [->|Hne]; [|lia].
  assert (Hz : sum (fun i => if N.eqb i j then c else 0%nat) l = 0%nat); [|lia].
  clear Hd IH. induction l as [|k l IHl]; [reflexivity|]. rewrite sum_cons.
  destruct (N.eqb_spec k j) as [->|Hk]; [exfalso; apply Hn; left; reflexivity|]. apply IHl. intros Hi. apply Hn. right. exact Hi.
Qed.

(** A leaf or list may stand one level further down. *)
Lemma wf_deeper {E : Env} {K V} {KK : Key K} d p (x : dnext K V) : wf d p (strip (dn_node x)) ->
  wf (d + 1) (p + idx d (hashk (dn_key x)) * 2 ^ off d) (strip (dn_node x)).
Proof.
  intros HW. destruct (wf_next d p x HW) as (Ho & <-). rewrite <- pre_succ.
  destruct x as [l|[a k v]]; cbn [dn_node strip] in *; inversion HW as [d0 p0 s0 Hp|d0 p0 l0 hh HL Hp|]; subst.
  - econstructor; [exact HL|]. f_equal. symmetry. destruct HL as (_ & _ & HH). cbn [dn_key].
    destruct (dl_entry l) as [k v] eqn:He. apply (HH (k, v)). destruct l; cbn in *; left; congruence.
  - constructor. reflexivity.
Qed.

Section Traverse.
Context {E : Env} {K V L W S X R T : Type} {KK : Key K} {KL : Key L}.
Context (rdef : R) (rd : R -> R -> R).
Notation heap := (heap S X).
Context (add : hacc R -> N -> option (dnode K V) -> option (dnode L W) -> T -> heap -> outcome (hacc R)).
Context (lone : dnode K V -> heap -> outcome (T * heap)) (rone : dnode L W -> heap -> outcome (T * heap))
  (done : hacc R -> heap -> outcome (T * heap)).
Context (leaf : dnext K V -> dnext L W -> N -> heap -> outcome (T * heap)).
Context (M : nat) (HM : forall b, levels 0 b -> (b <= M)%nat) (wt rl rr : N -> nat).
Context (selL : K * V -> bool) (selR : L * W -> bool).
Notation CL d n := (cost wt (lv M d) selL (dvisit n)).
Notation CR d n := (cost wt (lv M d) selR (dvisit n)).

Definition lone_fits : Prop := forall n d p w, wf d p (strip n) -> fits rl (dvisit n) -> dvisit n <> [] -> within w (lone n w) (CL d n).
Definition rone_fits : Prop := forall n d p w, wf d p (strip n) -> fits rr (dvisit n) -> dvisit n <> [] -> within w (rone n w) (CR d n).
Definition done_fits : Prop := forall a w, within w (done a w) 1.
Definition leaf_fits : Prop := forall x y d p w, wf d p (strip (dn_node x)) -> wf d p (strip (dn_node y)) -> fits rl (xvisit x) -> fits rr (xvisit y) ->
  within w (leaf x y d w) (CL d (dn_node x) + CR d (dn_node y)).
(** The entries of one of the maps are all paid for. *)
Definition paid : Prop := (forall e, selL e = true) \/ (forall e, selR e = true).
Definition extra (n : list (K * V)) (r : list (L * W)) : nat := match n, r with _ :: _, _ :: _ => 0 | _, _ => 1 end.

Lemma up d n r : paid -> off d < hbits ->
  (cost wt (lv M (d + 1)) selL n + cost wt (lv M (d + 1)) selR r + 1 <= cost wt (lv M d) selL n + cost wt (lv M d) selR r + extra n r)%nat.
Proof.
  intros HP Ho. rewrite (lv_S M HM d Ho).
  pose proof (cost_le wt (lv M (d + 1)) (Datatypes.S (lv M (d + 1))) selL selL n ltac:(lia) (fun _ _ H => H)) as H1.
  pose proof (cost_le wt (lv M (d + 1)) (Datatypes.S (lv M (d + 1))) selR selR r ltac:(lia) (fun _ _ H => H)) as H2.
  destruct n as [|e n]; [cbn [extra]; lia|]. destruct r as [|e' r]; [cbn [extra]; lia|]. cbn [extra]. destruct HP as [HP|HP].
  - pose proof (cost_up wt (lv M (d + 1)) selL (e :: n) e (or_introl eq_refl) (HP e)). lia.
  - pose proof (cost_up wt (lv M (d + 1)) selR (e' :: r) e' (or_introl eq_refl) (HP e')). lia.
Qed.

Lemma extra_ne n r : n <> [] -> r <> [] -> extra n r = 0%nat.
Proof. destruct n, r; try contradiction. reflexivity. Qed.

Lemma h_leaf_cost (Hlone : lone_fits) (Hrone : rone_fits) (Hdone : done_fits) (Hleaf : leaf_fits) (HP : paid) right n : forall d p w,
  wf d p (strip n) -> wf d p (strip (dn_node right)) -> fits rl (dvisit n) -> fits rr (xvisit right) ->
  within w (h_leaf rdef add lone rone done leaf right n d w) (CL d n + CR d (dn_node right) + extra (dvisit n) (xvisit right)).
Proof.
  induction n as [a bits values x IH|l|s] using dnode_ind'; intros d p w HW HWr HF HFr.
  - destruct (wf_kid _ _ _ _ _ _ HW) as (Ho & Hok & Hkid). eapply within_weak; [|apply (up d _ _ HP Ho)].
    cbn [h_leaf]. rewrite flag_at_ok by exact Ho. cbn [bind unwrap fl_flag]. apply within_bind; [|intros acc w' _; apply Hdone].
    rewrite (dvisit_slots a bits values x Hok) at 1. rewrite cost_flat.
    eapply within_weak.
    + apply (hloop_within _ (fun i => cost wt (lv M (d + 1)) selL (odvisit (getv bits values i)) +
        if N.eqb i (idx d (hashk (dn_key right))) then CR (d + 1) (dn_node right) else 0)%nat).
      intros i acc v Hlt. apply range_in in Hlt. unfold hcl_step. rewrite bat_bit_index_slot by (assumption || lia). cbn [bind].
      rewrite nth_bit_ok by lia. cbn [unwrap_ok bind]. rewrite pow2_eqb, N.eqb_sym.
      destruct (getv bits values i) as [c|] eqn:Hg.
      * destruct (Hkid i c Hg) as (HWc & Hne). pose proof (fits_slot _ _ _ _ _ _ _ Hok Hg HF) as HFc.
        destruct (N.eqb_spec i (idx d (hashk (dn_key right)))) as [->|Hi]; cbn [odvisit].
        -- eapply within_weak; [apply within_bind with (m := 0%nat)|].
           ++ apply (proj1 (Forall_forall _ _) IH c (getv_in _ _ _ _ Hg) (d + 1) _ v HWc (wf_deeper _ _ _ HWr) HFc HFr).
           ++ intros t v' _. apply within_pure. intros a2 _. wstep.
           ++ rewrite (extra_ne _ _ Hne (xvisit_ne right)). lia.
        -- eapply within_weak; [apply within_bind with (m := 0%nat)|].
           ++ apply (Hlone c (d + 1) _ v HWc HFc Hne).
           ++ intros t v' _. apply within_pure. intros a2 _. wstep.
           ++ lia.
      * destruct (N.eqb_spec i (idx d (hashk (dn_key right)))) as [->|Hi]; [|wstep].
        eapply within_weak; [apply within_bind with (m := 0%nat)|].
        ++ apply (Hrone (dn_node right) (d + 1) _ v (wf_deeper _ _ _ HWr) HFr (xvisit_ne right)).
        ++ intros t v' _. apply within_pure. intros a2 _. wstep.
        ++ cbn [odvisit]. lia.
    + rewrite sum_add. pose proof (sum_one (idx d (hashk (dn_key right))) (CR (d + 1) (dn_node right)) (range 0 (max_ones fw)) (range_nodup _ _)). lia.
  - eapply within_weak; [apply (Hleaf (DNL l) right d p w HW HWr HF HFr)|cbn [dn_node]; lia].
  - eapply within_weak; [apply (Hleaf (DNS s) right d p w HW HWr HF HFr)|cbn [dn_node]; lia].
Qed.

Context (tree_leaf : dnext L W -> dnode K V -> N -> heap -> outcome (T * heap)).
Context (leaf_tree : dnext K V -> dnode L W -> N -> heap -> outcome (T * heap)).
Context (short : option T) (st : strategy).
Definition tree_leaf_fits : Prop := forall x n d p w, wf d p (strip n) -> wf d p (strip (dn_node x)) -> fits rl (dvisit n) -> fits rr (xvisit x) ->
  within w (tree_leaf x n d w) (CL d n + CR d (dn_node x) + extra (dvisit n) (xvisit x)).
Definition leaf_tree_fits : Prop := forall x n d p w, wf d p (strip (dn_node x)) -> wf d p (strip n) -> fits rl (xvisit x) -> fits rr (dvisit n) ->
  within w (leaf_tree x n d w) (CL d (dn_node x) + CR d n + extra (xvisit x) (dvisit n)).

Lemma h_joint_cost (Hlone : lone_fits) (Hrone : rone_fits) (Hdone : done_fits) (Hleaf : leaf_fits) (Htl : tree_leaf_fits) (Hlt : leaf_tree_fits)
  (HP : paid) n : forall right d p w,
  wf d p (strip n) -> wf d p (strip right) -> fits rl (dvisit n) -> fits rr (dvisit right) ->
  within w (h_joint rdef rd add lone rone done leaf tree_leaf leaf_tree short st n right d w)
    (CL d n + CR d right + extra (dvisit n) (dvisit right)).
Proof.
  induction n as [a bits values x IH|l|s] using dnode_ind'; intros right d p w HW HWr HF HFr.
  - destruct right as [a' [bits' values' x']|l|s]; cbn [h_joint].
    + destruct short as [t|]; [wstep|]. destruct (wf_kid _ _ _ _ _ _ HW) as (Ho & Hok & Hkid).
      destruct (wf_kid _ _ _ _ _ _ HWr) as (_ & Hok' & Hkid'). eapply within_weak; [|apply (up d _ _ HP Ho)].
      apply within_bind; [|intros acc w' _; apply Hdone].
      rewrite (dvisit_slots a bits values x Hok) at 1. rewrite (dvisit_slots a' bits' values' x' Hok') at 1. rewrite !cost_flat, <- sum_add.
      apply hrun_loop_within. intros i acc v Hi. unfold hcc_step. rewrite bat_bit_index_slot by assumption. cbn [bind].
      rewrite bat_bit_index_get by assumption. unfold get. cbn [bbits bvalues bind].
      destruct (getv bits values i) as [c|] eqn:Hg, (getv bits' values' i) as [c'|] eqn:Hg'; cbn [odvisit].
      * destruct (Hkid i c Hg) as (HWc & Hne). pose proof (fits_slot _ _ _ _ _ _ _ Hok Hg HF) as HFc.
        destruct (Hkid' i c' Hg') as (HWc' & Hne'). pose proof (fits_slot _ _ _ _ _ _ _ Hok' Hg' HFr) as HFc'.
        eapply within_weak; [apply within_bind with (m := 0%nat)|].
        -- apply (proj1 (Forall_forall _ _) IH c (getv_in _ _ _ _ Hg) c' (d + 1) _ v HWc HWc' HFc HFc').
        -- intros t v' _. apply within_pure. intros a2 _. wstep.
        -- rewrite (extra_ne _ _ Hne Hne'). lia.
      * destruct (Hkid i c Hg) as (HWc & Hne). pose proof (fits_slot _ _ _ _ _ _ _ Hok Hg HF) as HFc.
        eapply within_weak; [apply within_bind with (m := 0%nat)|].
        -- apply (Hlone c (d + 1) _ v HWc HFc Hne).
        -- intros t v' _. apply within_pure. intros a2 _. wstep.
        -- lia.
      * destruct (Hkid' i c' Hg') as (HWc' & Hne'). pose proof (fits_slot _ _ _ _ _ _ _ Hok' Hg' HFr) as HFc'.
        eapply within_weak; [apply within_bind with (m := 0%nat)|].
        -- apply (Hrone c' (d + 1) _ v HWc' HFc' Hne').
        -- intros t v' _. apply within_pure. intros a2 _. wstep.
        -- lia.
      * wstep.
    + apply (Htl (DNL l) _ d p w HW HWr HF HFr).
    + apply (Htl (DNS s) _ d p w HW HWr HF HFr).
  - destruct right as [a' b'|l'|s']; cbn [h_joint].
    + apply (Hlt (DNL l) _ d p w HW HWr HF HFr).
    + eapply within_weak; [apply (Hleaf (DNL l) (DNL l') d p w HW HWr HF HFr)|cbn [dn_node]; lia].
    + eapply within_weak; [apply (Hleaf (DNL l) (DNS s') d p w HW HWr HF HFr)|cbn [dn_node]; lia].
  - destruct right as [a' b'|l'|s']; cbn [h_joint].
    + apply (Hlt (DNS s) _ d p w HW HWr HF HFr).
    + eapply within_weak; [apply (Hleaf (DNS s) (DNL l') d p w HW HWr HF HFr)|cbn [dn_node]; lia].
    + eapply within_weak; [apply (Hleaf (DNS s) (DNS s') d p w HW HWr HF HFr)|cbn [dn_node]; lia].
Qed.
End Traverse.
