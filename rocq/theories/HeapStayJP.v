(** What the joint operations leave in place. *)
From Coq Require Import NArith Arith List Bool Lia ZifyBool ZifyN ZifyNat Permutation.
From Verif Require Import Base Words WordsP Flag FlagP Bia BiaP Node Spec SpecP Inv NodeP InsertP TrieP Api Trans Transform Joint JointT
  Depth Heap SpecH SpecB HeapP HeapOpP HeapCostP HeapBulk HeapBulkP HeapBoundP HeapBoundJP HeapStayP HeapStayAP.
Import ListNotations.
Open Scope N_scope.

(** * Runs only add cells *)
Lemma hs_new_grows {S X A} k v (w : heap S X) (f : nat * heap S X -> outcome (A * heap S X)) :
  (forall s w', grows w' (f (s, w'))) -> grows w (f (Heap.hs_new w k v)).
Proof.
  intros H a w' Hf. assert (He : ext w (snd (Heap.hs_new w k v))) by apply ext_snoc.
  destruct (Heap.hs_new w k v) as [s w1]. eapply ext_trans; [exact He|apply (H _ _ _ _ Hf)].
Qed.
Ltac gmore := repeat match goal with
  | |- grows _ (Ret _) => apply grows_ret
  | |- grows _ Panic => apply grows_panic
  | |- grows _ Diverge => apply grows_diverge
  | |- grows _ (as_t _) => apply as_t_grows
  | |- grows _ (as_j _) => apply as_j_grows
  | |- grows _ (as_flip _) => apply as_flip_grows
  | |- grows _ (new_s _ _ _ _) => apply new_s_grows
  | |- grows _ (new_l _ _ _ _ _) => apply new_l_grows
  | |- grows _ (hn_cons _ _ _ _ _) => apply hn_cons_grows
  | |- grows _ (hl_transform_result _ _ _ _ _) => apply hl_transform_result_grows
  | |- grows _ (hl_transform _ _ _ _) => apply hl_transform_grows
  | |- grows _ (hs_transform _ _ _) => apply hs_transform_grows
  | |- grows _ (h_transform _ _ _ _ _ _) => apply h_transform_grows
  | |- grows _ (hc_lift _ _ _ _ _ _) => apply hc_lift_grows
  | |- grows _ (hfinish _ _) => apply hfinish_grows
  | |- grows _ (bind _ _) => first [apply grows_bind; [|intros ? ?]|apply grows_pure; intros ?]
  | |- grows _ (let (s, w) := Heap.hs_new ?w0 ?k ?v in @?F s w) => apply (hs_new_grows k v w0 (fun p => let (s, w) := p in F s w)); intros ? ?
  | |- grows _ (match ?x with _ => _ end) => destruct x
  end.

Section GrowsLeaf.
Context {E : Env} {R : Type} (rdef : R) (rd : R -> R -> R).

Section Two.
Context {S X : Type}.
Notation heap := (heap S X).
Implicit Types (w : heap).
Lemma hlift_grows a lf b rf (z : R) w : grows w (hlift a lf b rf z w).
Proof. unfold hlift. gmore. Qed.
Lemma ht_cons_grows that k v (t : htres R) r w : grows w (ht_cons that k v t r w).
Proof. unfold ht_cons. gmore. Qed.
End Two.

Section Mute.
Context {K V S X : Type}.
Notation heap := (heap S X).
Implicit Types (w : heap).
Lemma hs_transmute_grows (op : transmute_op (K * V) S X R) s w : grows w (hs_transmute op s w).
Proof. unfold hs_transmute, hk_nres. gmore. Qed.
Lemma hl_transmute_result_grows (r : kres S X R) n w : grows w (hl_transmute_result rd r n w).
Proof. unfold hl_transmute_result. gmore. Qed.
Lemma hl_transmute_grows (op : transmute_op (K * V) S X R) l : forall w, grows w (hl_transmute rd op l w).
Proof.
  induction l as [a k v n IH z|a k v s z]; intros w; cbn [hl_transmute]; (destruct op; [|gmore]);
    (apply grows_bind; [|intros t w'; apply hl_transmute_result_grows]); [apply IH|apply hs_transmute_grows].
Qed.
Lemma hn_transmute_grows (op : transmute_op (K * V) S X R) n w : grows w (hn_transmute rd op n w).
Proof. destruct n; [apply hl_transmute_grows|apply hs_transmute_grows]. Qed.
Lemma h_transmute_grows (op : transmute_op (K * V) S X R) n : forall w, grows w (h_transmute rdef rd op n w).
Proof.
  induction n as [a bits values x IH|l|s] using dnode_ind'; intros w; cbn [h_transmute]; [|apply hl_transmute_grows|apply hs_transmute_grows].
  destruct op as [f|r]; [|gmore]. apply grows_bind; [|intros acc w'; gmore].
  apply hloop_grows. intros i acc v _. unfold hc_transmute_step. unfold bat_bit_index.
  destruct (nth_bit fw i) as [bit|e]; [|cbn [bind]; gmore]. cbn [bbits bvalues]. destruct (bit_index bits bit) as [j|e]; [|cbn [bind]; gmore].
  unfold nthN. destruct (nth_error (map _ values) (N.to_nat j)) as [run|] eqn:Hn; cbn [unwrap bind]; [|gmore].
  apply nth_error_In, in_map_iff in Hn. destruct Hn as (c' & <- & Hin).
  apply grows_bind; [apply (proj1 (Forall_forall _ _) IH c' Hin)|]. intros t v'. gmore.
Qed.
End Mute.

Lemma hn_transform_grows {K V} (op : transform_op (K * V) V R) n (w : heap K V) : grows w (hn_transform rd op n w).
Proof. destruct n; cbn [hn_transform]; gmore. Qed.

Section TM.
Context {K V L W : Type} {KK : Key K} {KL : Key L}.
Context (both : transform_op ((K * V) * (L * W)) V R) (lop : transform_op (K * V) V R) (rop : transmute_op (L * W) K V R).
Notation heap := (heap K V).
Implicit Types (w : heap).
Lemma htm_apart_grows this right d w : grows w (htm_apart rd lop rop this right d w).
Proof.
  unfold htm_apart. apply grows_bind; [apply hn_transform_grows|]. intros l w1. apply grows_bind; [apply hn_transmute_grows|]. intros r w2.
  apply grows_pure. intros [lf rf]. gmore. apply hlift_grows.
Qed.
Lemma htm_s_impl_grows s e w : grows w (htm_s_impl rd both lop rop s e w).
Proof.
  unfold htm_s_impl. destruct (keqb _ _); [gmore|]. destruct (tcall lop _), (mcall rop _); gmore.
Qed.
Lemma htm_l_impl_grows l : forall rights w, grows w (htm_l_impl rd both lop rop l rights w).
Proof.
  induction l as [a k v n IH z|a k v s z]; intros rights w; cbn [htm_l_impl]; (apply grows_bind; [|intros p w'; gmore]); [apply IH|].
  gmore. apply htm_s_impl_grows.
Qed.
Lemma htm_rest_grows l rights : forall next w, grows w (htm_rest rd rop l rights next w).
Proof.
  induction rights as [|e rights IH]; intros next w; cbn [htm_rest]; [gmore|]. apply grows_bind; [|intros t w'; apply IH]. gmore. apply ht_cons_grows.
Qed.
Lemma htm_lnode_grows l r d w : grows w (htm_lnode rd both lop rop l r d w).
Proof.
  unfold htm_lnode. destruct (_ =? _); [|apply htm_apart_grows]. apply grows_pure. intros rights. apply grows_bind; [apply htm_l_impl_grows|].
  intros [next rest] w'. apply htm_rest_grows.
Qed.
Lemma htm_ls_impl_grows l r : forall w, grows w (htm_ls_impl rd both lop rop l r w).
Proof.
  induction l as [a k v n IH z|a k v s z]; intros w; cbn [htm_ls_impl]; (destruct (keqb _ _); (apply grows_bind; [|intros t w'; gmore]));
    [apply hn_transform_grows|apply IH|apply hn_transform_grows|apply htm_s_impl_grows].
Qed.
Lemma htm_lsnode_grows l r d w : grows w (htm_lsnode rd both lop rop l r d w).
Proof. unfold htm_lsnode. destruct (_ =? _); [apply htm_ls_impl_grows|apply htm_apart_grows]. Qed.
Lemma htm_snode_grows l r d w : grows w (htm_snode rd both lop rop l r d w).
Proof. unfold htm_snode. destruct (_ =? _); [apply htm_s_impl_grows|apply htm_apart_grows]. Qed.
End TM.

Section MT.
Context {K V L W : Type} {KK : Key K} {KL : Key L}.
Context (both : transform_op ((K * V) * (L * W)) W R) (lop : transmute_op (K * V) L W R) (rop : transform_op (L * W) W R).
Notation heap := (heap L W).
Implicit Types (w : heap).
Lemma hmt_apart_grows this right d w : grows w (hmt_apart rd lop rop this right d w).
Proof.
  unfold hmt_apart. apply grows_bind; [apply hn_transmute_grows|]. intros l w1. apply grows_bind; [apply hn_transform_grows|]. intros r w2.
  apply grows_pure. intros [lf rf]. gmore. apply hlift_grows.
Qed.
Lemma hmt_s_impl_grows s e w : grows w (hmt_s_impl rd both lop rop s e w).
Proof.
  unfold hmt_s_impl. destruct (keqb _ _); [gmore|]. destruct (mcall lop _), (tcall rop _); gmore.
Qed.
Lemma hmt_ls_impl_grows l r : forall w, grows w (hmt_ls_impl rd both lop rop l r w).
Proof.
  assert (Hm : forall s q n w, grows w (hmt_miss rd s q n w)).
  { intros s q n w. unfold hmt_miss. destruct q; [apply ht_cons_grows|]. gmore. }
  assert (Hh : forall s q n w, grows w (hmt_hit rd s q n w)).
  { intros s q n w. unfold hmt_hit. destruct (ds_entry s). gmore. }
  induction l as [a k v n IH z|a k v s z]; intros w; cbn [hmt_ls_impl]; (destruct (keqb _ _);
    [apply grows_bind; [apply hn_transmute_grows|intros t w'; apply as_t_grows, Hh]|apply grows_bind; [|intros t w'; apply Hm]]);
    [apply IH|apply hmt_s_impl_grows].
Qed.
Lemma hmt_lsnode_grows l r d w : grows w (hmt_lsnode rd both lop rop l r d w).
Proof. unfold hmt_lsnode. destruct (_ =? _); [apply hmt_ls_impl_grows|apply hmt_apart_grows]. Qed.
Lemma hmt_snode_grows l r d w : grows w (hmt_snode rd both lop rop l r d w).
Proof. unfold hmt_snode. destruct (_ =? _); [apply hmt_s_impl_grows|apply hmt_apart_grows]. Qed.
End MT.

Lemma htm_leaf_grows {K V L W} {KK : Key K} {KL : Key L} (both : transform_op ((K * V) * (L * W)) V R) lop rop this right d w :
  grows w (htm_leaf rd both lop rop this right d w).
Proof. destruct this, right; [apply htm_lnode_grows|apply htm_lsnode_grows|apply hmt_lsnode_grows|apply htm_snode_grows]. Qed.
Lemma hmt_leaf_grows {K V L W} {KK : Key K} {KL : Key L} (both : transform_op ((K * V) * (L * W)) W R) lop rop this right d w :
  grows w (hmt_leaf rd both lop rop this right d w).
Proof. destruct this, right; [apply htm_lnode_grows|apply hmt_lsnode_grows|apply htm_lsnode_grows|apply hmt_snode_grows]. Qed.

Section TT.
Context {K V : Type} {KK : Key K}.
Notation heap := (heap K V).
Implicit Types (w : heap) (both : joint_op (K * V) V R) (lop rop : transform_op (K * V) V R).
Lemma htt_apart_grows lop rop this right d w : grows w (htt_apart rd lop rop this right d w).
Proof.
  unfold htt_apart. apply grows_bind; [apply hn_transform_grows|]. intros l w1. apply grows_bind; [apply hn_transform_grows|]. intros r w2.
  apply grows_pure. intros [lf rf]. gmore. apply hlift_grows.
Qed.
Lemma htt_s_impl_grows both lop rop s e w : grows w (htt_s_impl rd both lop rop s e w).
Proof.
  unfold htt_s_impl. destruct (ds_entry s), (ds_entry e). destruct (keqb _ _); [gmore|]. destruct (tcall lop _), (tcall rop _); gmore.
Qed.
Lemma new_ls_grows k v e (r : R) w : grows w (new_ls k v e r w).
Proof. unfold new_ls. gmore. Qed.
Lemma hjj_grows l r that next w : grows w (hjj rd l r that next w).
Proof. unfold hjj. destruct (dl_entry l). destruct r, next; gmore; apply new_ls_grows. Qed.
Lemma hjt_grows l r that next w : grows w (hjt rd l r that next w).
Proof. unfold hjt. destruct (dl_entry l). destruct r, next; gmore. Qed.
Lemma htj_grows l r that next w : grows w (htj rd l r that next w).
Proof. unfold htj. destruct (dl_entry l). destruct r, next; gmore. Qed.
Lemma htt_l_impl_grows both lop rop l : forall rights w, grows w (htt_l_impl rd both lop rop l rights w).
Proof.
  induction l as [a k v n IH z|a k v s z]; intros rights w; cbn [htt_l_impl];
    (apply grows_bind; [|intros [[next rest] that] w'; match goal with |- grows _ (let (_, _) := ?x in _) => destruct x end;
      apply grows_bind; [apply hjj_grows|intros t w2; gmore]]).
  - apply grows_bind; [apply IH|]. intros t w'. gmore.
  - destruct (take_key _ _) as [[e rest]|]; [|gmore].
    match goal with |- grows _ (let (s, w) := Heap.hs_new ?w0 ?k ?v in @?F s w) => apply (hs_new_grows k v w0 (fun p => let (s, w) := p in F s w)) end.
    intros b w'. apply grows_bind; [apply htt_s_impl_grows|]. intros t w2. gmore.
Qed.
Lemma htt_rest_grows rop l rights : forall next w, grows w (htt_rest rd rop l rights next w).
Proof. induction rights as [|e rights IH]; intros next w; cbn [htt_rest]; [gmore|]. apply grows_bind; [|intros t w'; apply IH]. gmore. Qed.
Lemma htt_lnode_grows both lop rop l r d w : grows w (htt_lnode rd both lop rop l r d w).
Proof.
  unfold htt_lnode. destruct (_ =? _); [|apply htt_apart_grows]. apply grows_pure. intros rights. apply grows_bind; [apply htt_l_impl_grows|].
  intros [next rest] w'. apply htt_rest_grows.
Qed.
Lemma htt_ls_impl_grows both lop rop l r : forall w, grows w (htt_ls_impl rd both lop rop l r w).
Proof.
  induction l as [a k v n IH z|a k v s z]; intros w; cbn [htt_ls_impl]; (destruct (keqb _ _);
    [apply grows_bind; [apply hn_transform_grows|intros t w'; apply hjt_grows]|apply grows_bind; [|intros t w'; apply htj_grows]]);
    [apply IH|apply htt_s_impl_grows].
Qed.
Lemma htt_lsnode_grows both lop rop l r d w : grows w (htt_lsnode rd both lop rop l r d w).
Proof. unfold htt_lsnode. destruct (_ =? _); [apply htt_ls_impl_grows|apply htt_apart_grows]. Qed.
Lemma htt_snode_grows both lop rop l r d w : grows w (htt_snode rd both lop rop l r d w).
Proof. unfold htt_snode. destruct (_ =? _); [apply htt_s_impl_grows|apply htt_apart_grows]. Qed.
Lemma htt_leaf_grows both lop rop this right d w : grows w (htt_leaf rd both lop rop this right d w).
Proof. destruct this, right; cbn [htt_leaf]; [apply htt_lnode_grows|apply htt_lsnode_grows|apply as_flip_grows, htt_lsnode_grows|apply htt_snode_grows]. Qed.
End TT.
End GrowsLeaf.

(** * The traversals *)
Section Traverse.
Context {E : Env} {K V L W S X R T : Type} {KK : Key K} {KL : Key L}.
Context (rdef : R) (rd : R -> R -> R).
Notation heap := (heap S X).
Context (add : hacc R -> N -> option (dnode K V) -> option (dnode L W) -> T -> heap -> outcome (hacc R)).
Context (lone : dnode K V -> heap -> outcome (T * heap)) (rone : dnode L W -> heap -> outcome (T * heap))
  (done : hacc R -> heap -> outcome (T * heap)).
Context (leaf : dnext K V -> dnext L W -> N -> heap -> outcome (T * heap)).
(** The node holds what is followed; the node has nothing with the hash of it;
    the result holds it; what the loop gathered holds it. *)
Context (hitL : heap -> dnode K V -> Prop) (hitR : heap -> dnode L W -> Prop) (freeL : dnode K V -> Prop) (freeR : dnode L W -> Prop)
  (good : T -> heap -> Prop) (Q : hacc R -> heap -> Prop).
(** It is in one of the nodes, and not in the other. *)
Definition hit w n r : Prop := hitL w n /\ freeR r \/ hitR w r /\ freeL n.

Record kept : Prop := {
  k_ext_L : forall w w' n, ext w w' -> hitL w n -> hitL w' n;
  k_ext_R : forall w w' n, ext w w' -> hitR w n -> hitR w' n;
  k_down_L : forall w a bits values x, hitL w (DC a (BIA bits values x)) -> exists c, In c values /\ hitL w c;
  k_down_R : forall w a bits values x, hitR w (DC a (BIA bits values x)) -> exists c, In c values /\ hitR w c;
  k_free_L : forall a bits values x c, freeL (DC a (BIA bits values x)) -> In c values -> freeL c;
  k_free_R : forall a bits values x c, freeR (DC a (BIA bits values x)) -> In c values -> freeR c;
  k_lone : forall n d p w t w', wf d p (strip n) -> hitL w n -> lone n w = Ret (t, w') -> good t w';
  k_rone : forall n d p w t w', wf d p (strip n) -> hitR w n -> rone n w = Ret (t, w') -> good t w';
  k_add_L : forall a i l or t w a', hitL w l -> good t w -> add a i (Some l) or t w = Ret a' -> Q a' w;
  k_add_R : forall a i ol r t w a', hitR w r -> good t w -> add a i ol (Some r) t w = Ret a' -> Q a' w;
  k_later : forall a i ol or t w a', add a i ol or t w = Ret a' -> later a a';
  k_keep : forall a w a' w', later a a' -> ext w w' -> Q a w -> Q a' w';
  k_done : forall a w t w', Q a w -> done a w = Ret (t, w') -> good t w';
  k_leaf : forall x y d p w t w', wf d p (strip (dn_node x)) -> wf d p (strip (dn_node y)) -> hit w (dn_node x) (dn_node y) ->
    leaf x y d w = Ret (t, w') -> good t w';
  k_grow_l : forall n w, grows w (lone n w);
  k_grow_r : forall n w, grows w (rone n w);
  k_grow_d : forall a w, grows w (done a w);
  k_grow_f : forall x y d w, grows w (leaf x y d w) }.

Lemma hit_ext w w' n r : kept -> ext w w' -> hit w n r -> hit w' n r.
Proof. intros HK He [(H1 & H2)|(H1 & H2)]; [left|right]; (split; [|exact H2]); [eapply (k_ext_L HK)|eapply (k_ext_R HK)]; eassumption. Qed.

(** One entry of the loop. *)
Lemma step_later (HK : kept) (o : heap -> outcome (T * heap)) a i ol or w a' w' : (forall w, grows w (o w)) ->
  (let* (t, w) := o w in let* a := add a i ol or t w in Ret (a, w)) = Ret (a', w') -> later a a' /\ ext w w'.
Proof.
  intros Ho H. apply bind_ret in H. destruct H as ([t w1] & H1 & H). apply bind_ret in H. destruct H as (a1 & Ha & H). injection H as <- <-.
  split; [eapply (k_later HK); exact Ha|apply (Ho _ _ _ H1)].
Qed.
Lemma step_at_L (HK : kept) (o : heap -> outcome (T * heap)) a i l or w a' w' : (forall w, grows w (o w)) ->
  (forall t w', o w = Ret (t, w') -> good t w') -> hitL w l ->
  (let* (t, w) := o w in let* a := add a i (Some l) or t w in Ret (a, w)) = Ret (a', w') -> Q a' w'.
Proof.
  intros Ho Hg Hl H. apply bind_ret in H. destruct H as ([t w1] & H1 & H). apply bind_ret in H. destruct H as (a1 & Ha & H). injection H as <- <-.
  eapply (k_add_L HK); [eapply (k_ext_L HK); [apply (Ho _ _ _ H1)|exact Hl]|apply Hg, H1|exact Ha].
Qed.
Lemma step_at_R (HK : kept) (o : heap -> outcome (T * heap)) a i ol r w a' w' : (forall w, grows w (o w)) ->
  (forall t w', o w = Ret (t, w') -> good t w') -> hitR w r ->
  (let* (t, w) := o w in let* a := add a i ol (Some r) t w in Ret (a, w)) = Ret (a', w') -> Q a' w'.
Proof.
  intros Ho Hg Hl H. apply bind_ret in H. destruct H as ([t w1] & H1 & H). apply bind_ret in H. destruct H as (a1 & Ha & H). injection H as <- <-.
  eapply (k_add_R HK); [eapply (k_ext_R HK); [apply (Ho _ _ _ H1)|exact Hl]|apply Hg, H1|exact Ha].
Qed.

(** ** A tree and a leaf or list *)
Lemma h_leaf_grows (HK : kept) right n : forall d w, grows w (h_leaf rdef add lone rone done leaf right n d w).
Proof.
  induction n as [a bits values x IH|l|s] using dnode_ind'; intros d w; cbn [h_leaf]; [|apply (k_grow_f HK)|apply (k_grow_f HK)].
  apply grows_pure. intros f. apply grows_pure. intros f'. apply grows_bind; [|intros acc w'; apply (k_grow_d HK)].
  apply hloop_grows. intros i acc v _. unfold hcl_step, bat_bit_index. destruct (nth_bit fw i) as [bit|e]; [|cbn [bind]; gmore; apply (k_grow_r HK)].
  cbn [bbits bvalues]. destruct (bit_index bits bit) as [j|e]; [|cbn [bind]; cbn [unwrap_ok bind]; gmore; apply (k_grow_r HK)].
  unfold nthN. destruct (nth_error (map _ values) (N.to_nat j)) as [[c run]|] eqn:Hn; cbn [unwrap unwrap_ok bind]; [|gmore].
  apply nth_error_In, in_map_iff in Hn. destruct Hn as (c' & Hc & Hin). injection Hc as <- <-.
  destruct (_ =? _); (apply grows_bind; [|intros t v'; gmore]); [apply (proj1 (Forall_forall _ _) IH c' Hin)|apply (k_grow_l HK)].
Qed.

Lemma h_leaf_stay (HK : kept) right n : forall d p w t w', wf d p (strip n) -> wf d p (strip (dn_node right)) -> hit w n (dn_node right) ->
  h_leaf rdef add lone rone done leaf right n d w = Ret (t, w') -> good t w'.
Proof.
  induction n as [a bits values x IH|l|s] using dnode_ind'; intros d p w t w' HW HWr Hh H.
  2: { apply (k_leaf HK (DNL l) right d p w t w' HW HWr Hh H). }
  2: { apply (k_leaf HK (DNS s) right d p w t w' HW HWr Hh H). }
  destruct (wf_kid _ _ _ _ _ _ HW) as (Ho & Hok & Hkid). cbn [h_leaf] in H. rewrite flag_at_ok in H by exact Ho. cbn [bind unwrap fl_flag] in H.
  apply bind_ret in H. destruct H as ([acc w1] & H1 & H). eapply (k_done HK); [|exact H]. clear H t w'.
  pose (i0 := idx d (hashk (dn_key right))).
  assert (Hi0 : i0 < max_ones fw) by (apply idx_lt).
  assert (Hst : forall i a1 v a2 v', i < max_ones fw -> hcl_step add lone rone (2 ^ i0) (dn_node right) d
      (BIA bits (map (fun c => (c, h_leaf rdef add lone rone done leaf right c)) values) x) a1 i v = Ret (a2, v') ->
      match getv bits values i with
      | Some c => if N.eqb i i0 then
          (let* (t, w) := h_leaf rdef add lone rone done leaf right c (d + 1) v in let* a := add a1 i (Some c) (Some (dn_node right)) t w in Ret (a, w)) = Ret (a2, v')
        else (let* (t, w) := lone c v in let* a := add a1 i (Some c) (Some (dn_node right)) t w in Ret (a, w)) = Ret (a2, v')
      | None => if N.eqb i i0 then (let* (t, w) := rone (dn_node right) v in let* a := add a1 i None (Some (dn_node right)) t w in Ret (a, w)) = Ret (a2, v')
        else Ret (a1, v) = Ret (a2, v')
      end).
  { intros i a1 v a2 v' Hi Hs. unfold hcl_step in Hs. rewrite bat_bit_index_slot in Hs by assumption. cbn [bind] in Hs.
    rewrite nth_bit_ok in Hs by exact Hi. cbn [unwrap_ok bind] in Hs. rewrite pow2_eqb, N.eqb_sym in Hs.
    destruct (getv bits values i) as [c|]; destruct (N.eqb i i0); exact Hs. }
  assert (Hlater : forall i a1 v a2 v', i < max_ones fw -> hcl_step add lone rone (2 ^ i0) (dn_node right) d
      (BIA bits (map (fun c => (c, h_leaf rdef add lone rone done leaf right c)) values) x) a1 i v = Ret (a2, v') -> later a1 a2 /\ ext v v').
  { intros i a1 v a2 v' Hi Hs. apply Hst in Hs; [|exact Hi]. destruct (getv bits values i) as [c|]; destruct (N.eqb i i0).
    - eapply (step_later HK); [|exact Hs]. intros u. apply (h_leaf_grows HK).
    - eapply (step_later HK (lone c)); [|exact Hs]. intros u. apply (k_grow_l HK).
    - eapply (step_later HK (rone (dn_node right))); [|exact Hs]. intros u. apply (k_grow_r HK).
    - injection Hs as <- <-. split; [apply later_refl|apply ext_refl]. }
  assert (Hgo : forall i1, i1 < max_ones fw -> (forall a1 v a2 v', ext w v -> hcl_step add lone rone (2 ^ i0) (dn_node right) d
      (BIA bits (map (fun c => (c, h_leaf rdef add lone rone done leaf right c)) values) x) a1 i1 v = Ret (a2, v') -> Q a2 v') -> Q acc w1).
  { intros i1 Hi1 Hat. apply (hrun_loop_at rdef rd _ Hlater Q (k_keep HK) i1 w Hi1 Hat Sequential). exact H1. }
  destruct Hh as [(Hl & Hfr)|(Hr & Hfl)].
  - destruct (k_down_L HK _ _ _ _ _ Hl) as (c & Hin & Hc). destruct (in_values_get _ bits values c Hok Hin) as (i1 & Hi1 & Hg).
    apply (Hgo i1 Hi1). intros a1 v a2 v' He Hs. apply Hst in Hs; [|exact Hi1]. rewrite Hg in Hs. destruct (Hkid i1 c Hg) as (HWc & _).
    assert (Hcv : hitL v c) by (eapply (k_ext_L HK); eassumption). destruct (N.eqb_spec i1 i0) as [->|Hne].
    + eapply (step_at_L HK); [| |exact Hcv|exact Hs]; [intros u; apply (h_leaf_grows HK)|]. intros t u Hr.
      refine (proj1 (Forall_forall _ _) IH c Hin (d + 1) _ v t u HWc (wf_deeper _ _ _ HWr) _ Hr). left. split; assumption.
    + eapply (step_at_L HK (lone c)); [| |exact Hcv|exact Hs]; [intros u; apply (k_grow_l HK)|]. intros t u Hr. eapply (k_lone HK); eassumption.
  - apply (Hgo i0 Hi0). intros a1 v a2 v' He Hs. apply Hst in Hs; [|exact Hi0]. rewrite N.eqb_refl in Hs.
    assert (Hcv : hitR v (dn_node right)) by (eapply (k_ext_R HK); eassumption). destruct (getv bits values i0) as [c|] eqn:Hg.
    + destruct (Hkid i0 c Hg) as (HWc & _). eapply (step_at_R HK); [| |exact Hcv|exact Hs]; [intros u; apply (h_leaf_grows HK)|]. intros t u Hru.
      refine (proj1 (Forall_forall _ _) IH c (getv_in _ _ _ _ Hg) (d + 1) _ v t u HWc (wf_deeper _ _ _ HWr) _ Hru). right. split; [exact Hcv|].
      eapply (k_free_L HK); [exact Hfl|eapply getv_in, Hg].
    + eapply (step_at_R HK (rone (dn_node right))); [| |exact Hcv|exact Hs]; [intros u; apply (k_grow_r HK)|]. intros t u Hru.
      eapply (k_rone HK); [apply (wf_deeper _ _ _ HWr)|exact Hcv|exact Hru].
Qed.

(** ** Two trees *)
Context (tree_leaf : dnext L W -> dnode K V -> N -> heap -> outcome (T * heap)).
Context (leaf_tree : dnext K V -> dnode L W -> N -> heap -> outcome (T * heap)).
Context (short : option T) (st : strategy).
Notation joint := (h_joint rdef rd add lone rone done leaf tree_leaf leaf_tree short st).
Definition tl_kept : Prop := forall x n d p w t w', wf d p (strip n) -> wf d p (strip (dn_node x)) -> hit w n (dn_node x) ->
  tree_leaf x n d w = Ret (t, w') -> good t w'.
Definition lt_kept : Prop := forall x n d p w t w', wf d p (strip (dn_node x)) -> wf d p (strip n) -> hit w (dn_node x) n ->
  leaf_tree x n d w = Ret (t, w') -> good t w'.
Definition two_grow : Prop := (forall x n d w, grows w (tree_leaf x n d w)) /\ (forall x n d w, grows w (leaf_tree x n d w)).

Lemma h_joint_grows (HK : kept) (Hg : two_grow) n : forall right d w, grows w (joint n right d w).
Proof.
  induction n as [a bits values x IH|l|s] using dnode_ind'; intros right d w;
    [|destruct right; cbn [h_joint]; [apply Hg|apply (k_grow_f HK)|apply (k_grow_f HK)]
     |destruct right; cbn [h_joint]; [apply Hg|apply (k_grow_f HK)|apply (k_grow_f HK)]].
  destruct right as [a' rb|l|s]; cbn [h_joint]; [|apply Hg|apply Hg]. destruct short as [t|]; [gmore|].
  apply grows_bind; [|intros acc w'; apply (k_grow_d HK)]. apply hrun_loop_grows. intros i acc v Hi. unfold hcc_step.
  unfold bat_bit_index at 1. rewrite nth_bit_ok by exact Hi. cbn [bbits bvalues].
  destruct (bit_index bits (2 ^ i)) as [j|e]; cbn [bind].
  - unfold nthN. destruct (nth_error (map _ values) (N.to_nat j)) as [[c run]|] eqn:Hn; cbn [unwrap unwrap_ok bind]; [|gmore].
    apply nth_error_In, in_map_iff in Hn. destruct Hn as (c' & Hc & Hin). injection Hc as <- <-.
    apply grows_pure. intros [r|r]; (apply grows_bind; [|intros t v'; gmore]); [apply (proj1 (Forall_forall _ _) IH c' Hin)|apply (k_grow_l HK)].
  - apply grows_pure. intros [r|r]; gmore. apply (k_grow_r HK).
Qed.

Lemma h_joint_stay (HK : kept) (Hg : two_grow) (Htl : tl_kept) (Hlt : lt_kept)
  (Hshort : forall t w a bits values x a' rb, short = Some t -> hit w (DC a (BIA bits values x)) (DC a' rb) -> good t w) n :
  forall right d p w t w', wf d p (strip n) -> wf d p (strip right) -> hit w n right -> joint n right d w = Ret (t, w') -> good t w'.
Proof.
  induction n as [a bits values x IH|l|s] using dnode_ind'; intros right d p w t w' HW HWr Hh H.
  2: { destruct right as [a' rb|l'|s']; cbn [h_joint] in H.
       - apply (Hlt (DNL l) _ d p w t w' HW HWr Hh H).
       - apply (k_leaf HK (DNL l) (DNL l') d p w t w' HW HWr Hh H).
       - apply (k_leaf HK (DNL l) (DNS s') d p w t w' HW HWr Hh H). }
  2: { destruct right as [a' rb|l'|s']; cbn [h_joint] in H.
       - apply (Hlt (DNS s) _ d p w t w' HW HWr Hh H).
       - apply (k_leaf HK (DNS s) (DNL l') d p w t w' HW HWr Hh H).
       - apply (k_leaf HK (DNS s) (DNS s') d p w t w' HW HWr Hh H). }
  destruct right as [a' [bits' values' x']|l|s]; cbn [h_joint] in H;
    [|apply (Htl (DNL l) _ d p w t w' HW HWr Hh H)|apply (Htl (DNS s) _ d p w t w' HW HWr Hh H)].
  remember short as sh eqn:Hsh. destruct sh as [z|].
  { injection H as <- <-. eapply Hshort; [reflexivity|exact Hh]. }
  destruct (wf_kid _ _ _ _ _ _ HW) as (Ho & Hok & Hkid). destruct (wf_kid _ _ _ _ _ _ HWr) as (_ & Hok' & Hkid').
  apply bind_ret in H. destruct H as ([acc w1] & H1 & H). eapply (k_done HK); [|exact H]. clear H t w'.
  rewrite Hsh in *. clear Hsh.
  match type of H1 with hrun_loop _ _ _ ?s _ = _ => set (step := s) in * end.
  assert (Hst : forall i a1 v a2 v', i < max_ones fw -> step a1 i v = Ret (a2, v') ->
      match getv bits values i, getv bits' values' i with
      | Some c, Some c' => (let* (t, w) := joint c c' (d + 1) v in let* a := add a1 i (Some c) (Some c') t w in Ret (a, w)) = Ret (a2, v')
      | Some c, None => (let* (t, w) := lone c v in let* a := add a1 i (Some c) None t w in Ret (a, w)) = Ret (a2, v')
      | None, Some c' => (let* (t, w) := rone c' v in let* a := add a1 i None (Some c') t w in Ret (a, w)) = Ret (a2, v')
      | None, None => Ret (a1, v) = Ret (a2, v')
      end).
  { intros i a1 v a2 v' Hi Hs. unfold step, hcc_step in Hs. rewrite bat_bit_index_slot in Hs by assumption. cbn [bind] in Hs.
    rewrite bat_bit_index_get in Hs by assumption. unfold get in Hs. cbn [bbits bvalues bind] in Hs.
    destruct (getv bits values i) as [c|], (getv bits' values' i) as [c'|]; exact Hs. }
  assert (Hlater : forall i a1 v a2 v', i < max_ones fw -> step a1 i v = Ret (a2, v') -> later a1 a2 /\ ext v v').
  { intros i a1 v a2 v' Hi Hs. apply Hst in Hs; [|exact Hi]. destruct (getv bits values i) as [c|], (getv bits' values' i) as [c'|].
    - eapply (step_later HK (joint c c' (d + 1))); [|exact Hs]. intros u. apply (h_joint_grows HK Hg).
    - eapply (step_later HK (lone c)); [|exact Hs]. intros u. apply (k_grow_l HK).
    - eapply (step_later HK (rone c')); [|exact Hs]. intros u. apply (k_grow_r HK).
    - injection Hs as <- <-. split; [apply later_refl|apply ext_refl]. }
  assert (Hgo : forall i1, i1 < max_ones fw -> (forall a1 v a2 v', ext w v -> step a1 i1 v = Ret (a2, v') -> Q a2 v') -> Q acc w1).
  { intros i1 Hi1 Hat. apply (hrun_loop_at rdef rd _ Hlater Q (k_keep HK) i1 w Hi1 Hat st). exact H1. }
  destruct Hh as [(Hl & Hfr)|(Hr & Hfl)].
  - destruct (k_down_L HK _ _ _ _ _ Hl) as (c & Hin & Hc). destruct (in_values_get _ bits values c Hok Hin) as (i1 & Hi1 & Hg1).
    apply (Hgo i1 Hi1). intros a1 v a2 v' He Hs. apply Hst in Hs; [|exact Hi1]. rewrite Hg1 in Hs. destruct (Hkid i1 c Hg1) as (HWc & _).
    assert (Hcv : hitL v c) by (eapply (k_ext_L HK); eassumption). destruct (getv bits' values' i1) as [c'|] eqn:Hg2.
    + destruct (Hkid' i1 c' Hg2) as (HWc' & _).
      eapply (step_at_L HK (joint c c' (d + 1))); [| |exact Hcv|exact Hs]; [intros u; apply (h_joint_grows HK Hg)|]. intros t u Hru.
      refine (proj1 (Forall_forall _ _) IH c Hin c' (d + 1) _ v t u HWc HWc' _ Hru). left. split; [exact Hcv|].
      eapply (k_free_R HK); [exact Hfr|eapply getv_in, Hg2].
    + eapply (step_at_L HK (lone c)); [| |exact Hcv|exact Hs]; [intros u; apply (k_grow_l HK)|]. intros t u Hru. eapply (k_lone HK); eassumption.
  - destruct (k_down_R HK _ _ _ _ _ Hr) as (c' & Hin & Hc). destruct (in_values_get _ bits' values' c' Hok' Hin) as (i1 & Hi1 & Hg2).
    apply (Hgo i1 Hi1). intros a1 v a2 v' He Hs. apply Hst in Hs; [|exact Hi1]. rewrite Hg2 in Hs. destruct (Hkid' i1 c' Hg2) as (HWc' & _).
    assert (Hcv : hitR v c') by (eapply (k_ext_R HK); eassumption). destruct (getv bits values i1) as [c|] eqn:Hg1.
    + destruct (Hkid i1 c Hg1) as (HWc & _).
      eapply (step_at_R HK (joint c c' (d + 1))); [| |exact Hcv|exact Hs]; [intros u; apply (h_joint_grows HK Hg)|]. intros t u Hru.
      refine (proj1 (Forall_forall _ _) IH c (getv_in _ _ _ _ Hg1) c' (d + 1) _ v t u HWc HWc' _ Hru). right. split; [exact Hcv|].
      eapply (k_free_L HK); [exact Hfl|eapply getv_in, Hg1].
    + eapply (step_at_R HK (rone c')); [| |exact Hcv|exact Hs]; [intros u; apply (k_grow_r HK)|]. intros t u Hru. eapply (k_rone HK); eassumption.
Qed.
End Traverse.

(** * What is followed: a list or leaf with the hash [x0] that its operation spares *)
Section Target.
Context {E : Env} {K V R : Type} {KK : Key K}.
Context (rdef : R) (rd : R -> R -> R).
Notation heap := (heap K V).
Implicit Types (w : heap) (op : transform_op (K * V) V R).
Context (c : dnode K V) (x0 : N).
Definition found_in w (n : dnode K V) : Prop := lies w n /\ dbelow n c.
Definition followed op : Prop :=
  match c with DC _ _ => False | _ => True end /\ (forall e, In e (dvisit c) -> changes op e = false) /\
  exists e, In e (dvisit c) /\ hash (cls (fst e)) = x0.

Lemma found_ext w w' n : ext w w' -> found_in w n -> found_in w' n.
Proof. intros He (H1 & H2). split; [eapply lies_ext; eassumption|exact H2]. Qed.
Lemma found_down op w a bits values x : followed op -> found_in w (DC a (BIA bits values x)) -> exists n, In n values /\ found_in w n.
Proof.
  intros (Hc & _) (HL & Hb). unfold found_in. revert Hc Hb. generalize c. intros c' Hc Hb.
  inversion Hb as [|? ? ? ? n ? Hin Hb'|]; subst; [destruct Hc|]. exists n. split; [exact Hin|]. split; [|exact Hb'].
  inversion HL; subst. rewrite Forall_forall in *. auto.
Qed.
Lemma found_below w n : found_in w n -> below w (d_node n) (d_node c).
Proof. intros (HL & Hb). apply dbelow_below; assumption. Qed.
Lemma dbelow_visit (n m : dnode K V) : dbelow n m -> incl (dvisit m) (dvisit n).
Proof.
  induction 1 as [d|a bits vs x n m Hi H IH|l m H IH]; [apply incl_refl| |].
  - intros e He. rewrite dvisit_C. apply in_flat_map. exists n. split; [exact Hi|apply IH, He].
  - intros e He. apply IH in He. destruct l; right; exact He.
Qed.
Lemma found_hash op w d p x : followed op -> found_in w (dn_node x) -> wf d p (strip (dn_node x)) -> hashk (dn_key x) = x0.
Proof.
  intros (_ & _ & e & He & Hx) (_ & Hb) HW. destruct (wf_next d p x HW) as (Ho & _). rewrite <- Hx. symmetry. apply Ho. apply (dbelow_visit _ _ Hb), He.
Qed.

Lemma h_transform_found st op n d p w t w' : followed op -> wf d p (strip n) -> found_in w n -> h_transform rdef rd st op n w = Ret (t, w') -> holds t w' (d_node c).
Proof.
  intros (_ & Hu & e & He & _) HW (HL & Hb) H. destruct op as [f|z|z].
  - apply (h_transform_stay rdef rd f st n d p w t w' HW HL H c Hb Hu).
  - assert (Ht : t = HTU z). { destruct n as [a [bits values y]|[? ? ? ? ?|? ? ? ? ?]|[? ? ?]]; revert H; cbn; intros [= <- <-]; reflexivity. }
    subst t. exact I.
  - discriminate (Hu e He).
Qed.
Lemma hn_transform_found op x d p w t w' : followed op -> wf d p (strip (dn_node x)) -> found_in w (dn_node x) -> hn_transform rd op x w = Ret (t, w') ->
  holds t w' (d_node c).
Proof.
  intros Hf HW Hi H. apply (h_transform_found Sequential op (dn_node x) d p w t w' Hf HW Hi). destruct x; exact H.
Qed.
Lemma holds_out (t : htres R) w n : holds t w (d_node c) -> below w n (d_node c) -> exists a, htout n t = Some a /\ below w a (d_node c).
Proof. destruct t as [z|[y z|z]]; cbn; intros H Hn; [eauto|eauto|destruct H]. Qed.
Lemma holds_with (t : htres R) w z : holds t w (d_node c) -> holds (ht_with t z) w (d_node c).
Proof. destruct t as [y|[y r|y]]; cbn; auto. Qed.
Lemma holds_ext (t : htres R) w w' : ext w w' -> holds t w (d_node c) -> holds t w' (d_node c).
Proof. intros He. destruct t as [y|[y r|y]]; cbn; auto. apply below_ext, He. Qed.
Lemma hlift_found a lf b rf (z : R) w t w' : hlift a lf b rf z w = Ret (t, w') -> below w a (d_node c) \/ below w b (d_node c) ->
  exists y r, t = HNN y r /\ below w' y (d_node c).
Proof.
  unfold hlift. intros H Hb. apply bind_ret in H. destruct H as ([y w1] & H1 & H). injection H as <- <-.
  do 2 eexists. split; [reflexivity|]. eapply hc_lift_stay; eassumption.
Qed.
End Target.

(** The other map has nothing with the hash. *)
Definition no_hash {E : Env} {K V} {KK : Key K} (x0 : N) (n : dnode K V) : Prop := forall e, In e (dvisit n) -> hash (cls (fst e)) <> x0.
Lemma no_hash_down {E : Env} {K V} {KK : Key K} x0 a bits (values : list (dnode K V)) x n : no_hash x0 (DC a (BIA bits values x)) -> In n values -> no_hash x0 n.
Proof. intros H Hi e He. apply H. rewrite dvisit_C. apply in_flat_map. eauto. Qed.
Lemma no_hash_key {E : Env} {K V} {KK : Key K} x0 (x : dnext K V) : no_hash x0 (dn_node x) -> hashk (dn_key x) <> x0.
Proof.
  intros H. destruct x as [l|[a k v]].
  - cbn [dn_key]. destruct (dl_entry l) as [k v] eqn:He. apply (H (k, v)). destruct l; cbn in *; left; congruence.
  - apply (H (k, v)). left. reflexivity.
Qed.

(** * transform_with_transmuted and transmute_with_transformed *)
Section One.
Context {E : Env} {K V R : Type} {KK : Key K}.
Context (rdef : R) (rd : R -> R -> R) (st : strategy).
Context (c : dnode K V) (x0 : N) (op : transform_op (K * V) V R) (Hf : followed c x0 op).
Notation heap := (heap K V).
Definition gathered (a : hacc R) (w : heap) : Prop := exists y, In y (ha_values a) /\ below w y (d_node c).
Lemma gathered_keep a w a' w' : later a a' -> ext w w' -> gathered a w -> gathered a' w'.
Proof. intros (Hl & _) He (y & Hy & Hb). exists y. split; [apply Hl, Hy|eapply below_ext; eassumption]. Qed.
Lemma push_gathered (a a' : hacc R) i n z r w : hpush rd a i (d_node n) z r = Ret a' -> found_in c w n -> gathered a' w.
Proof.
  intros H Hn. apply hpush_later in H. destruct H as (Hv & _). exists (d_node n). rewrite Hv. split; [apply in_or_app; right; left; reflexivity|].
  apply found_below, Hn.
Qed.
Lemma push_new_gathered (a a' : hacc R) i n w : hpush_new rd w a i n = Ret a' -> holds (HTN n) w (d_node c) -> gathered a' w.
Proof.
  intros H Hn. apply hpush_new_later in H. destruct H as (Hv & _). destruct n as [y z|z]; [|destruct Hn]. exists y. rewrite Hv.
  split; [apply in_or_app; right; left; reflexivity|exact Hn].
Qed.
Lemma finish_gathered (a : hacc R) w t w' : gathered a w -> as_t (hfinish a w) = Ret (t, w') -> holds t w' (d_node c).
Proof.
  intros (y & Hy & Hb) H. unfold as_t in H. apply bind_ret in H. destruct H as ([t1 w2] & H1 & H). injection H as <- <-.
  destruct (hfinish_holds _ _ _ _ _ _ Hy Hb H1) as (y' & r & -> & Hb2). exact Hb2.
Qed.

Section Other.
Context {L W : Type} {KL : Key L}.
Context (both : transform_op ((K * V) * (L * W)) V R) (htob : transform_op ((L * W) * (K * V)) V R) (mop : transmute_op (L * W) K V R).

Lemma htm_apart_found this right d p w t w' : wf d p (strip (dn_node this)) -> found_in c w (dn_node this) ->
  htm_apart rd op mop this right d w = Ret (t, w') -> holds t w' (d_node c).
Proof.
  unfold htm_apart. intros HW Hi H. apply bind_ret in H. destruct H as ([l w1] & H1 & H). apply bind_ret in H. destruct H as ([r w2] & H2 & H).
  apply bind_ret in H. destruct H as ([lf rf] & _ & H). pose proof (hn_transform_found rdef rd c x0 op this d p w l w1 Hf HW Hi H1) as Hl.
  pose proof (hn_transform_grows rd op this w l w1 H1) as He1. pose proof (hn_transmute_grows rd mop right w1 r w2 H2) as He2.
  apply (holds_ext c l _ _ He2) in Hl.
  destruct (holds_out c l w2 (hnext_node (dn_next this)) Hl) as (a & Ha & Hb).
  { rewrite next_handle. apply found_below. eapply found_ext; [exact (ext_trans _ _ _ He1 He2)|exact Hi]. }
  rewrite Ha in H. destruct (hnnode r) as [b|].
  - unfold as_t in H. apply bind_ret in H. destruct H as ([y w3] & H3 & H). injection H as <- <-.
    destruct (hlift_found c _ _ _ _ _ _ _ _ H3 (or_introl Hb)) as (y' & z & -> & Hy). exact Hy.
  - injection H as <- <-. apply holds_with, Hl.
Qed.
Lemma hmt_apart_found this right d p w t w' : wf d p (strip (dn_node right)) -> found_in c w (dn_node right) ->
  hmt_apart rd mop op this right d w = Ret (t, w') -> holds t w' (d_node c).
Proof.
  unfold hmt_apart. intros HW Hi H. apply bind_ret in H. destruct H as ([l w1] & H1 & H). apply bind_ret in H. destruct H as ([r w2] & H2 & H).
  apply bind_ret in H. destruct H as ([lf rf] & _ & H). pose proof (hn_transmute_grows rd mop this w l w1 H1) as He1.
  apply (found_ext c _ _ _ He1) in Hi. pose proof (hn_transform_found rdef rd c x0 op right d p w1 r w2 Hf HW Hi H2) as Hr.
  pose proof (hn_transform_grows rd op right w1 r w2 H2) as He2.
  destruct (holds_out c r w2 (hnext_node (dn_next right)) Hr) as (a & Ha & Hb).
  { rewrite next_handle. apply found_below. eapply found_ext; eassumption. }
  rewrite Ha in H. destruct (hnnode l) as [b|].
  - unfold as_t in H. apply bind_ret in H. destruct H as ([y w3] & H3 & H). injection H as <- <-.
    destruct (hlift_found c _ _ _ _ _ _ _ _ H3 (or_intror Hb)) as (y' & z & -> & Hy). exact Hy.
  - injection H as <- <-. apply holds_with, Hr.
Qed.

Lemma htm_leaf_found this right d p w t w' : wf d p (strip (dn_node this)) -> wf d p (strip (dn_node right)) ->
  found_in c w (dn_node this) -> no_hash x0 (dn_node right) -> htm_leaf rd both op mop this right d w = Ret (t, w') -> holds t w' (d_node c).
Proof.
  intros HW HWr Hi Hno H. pose proof (found_hash c x0 op w d p this Hf Hi HW) as Hk. pose proof (no_hash_key x0 right Hno) as Hk'.
  assert (Hne : (hashk (dn_key this) =? hashk (dn_key right)) = false) by (apply N.eqb_neq; congruence).
  assert (Hne' : (hashk (dn_key right) =? hashk (dn_key this)) = false) by (apply N.eqb_neq; congruence).
  destruct this as [l|s], right as [l'|s']; cbn [htm_leaf dn_key dn_node] in *.
  - unfold htm_lnode in H. rewrite Hne in H. eapply (htm_apart_found (DNL l)); eassumption.
  - unfold htm_lsnode in H. rewrite Hne in H. eapply (htm_apart_found (DNL l)); eassumption.
  - unfold hmt_lsnode in H. rewrite Hne' in H. eapply (hmt_apart_found _ (DNS s)); eassumption.
  - unfold htm_snode in H. rewrite Hne in H. eapply (htm_apart_found (DNS s)); eassumption.
Qed.
Lemma hmt_leaf_found this right d p w t w' : wf d p (strip (dn_node this)) -> wf d p (strip (dn_node right)) ->
  found_in c w (dn_node right) -> no_hash x0 (dn_node this) -> hmt_leaf rd htob mop op this right d w = Ret (t, w') -> holds t w' (d_node c).
Proof.
  intros HW HWr Hi Hno H. pose proof (found_hash c x0 op w d p right Hf Hi HWr) as Hk. pose proof (no_hash_key x0 this Hno) as Hk'.
  assert (Hne : (hashk (dn_key this) =? hashk (dn_key right)) = false) by (apply N.eqb_neq; congruence).
  assert (Hne' : (hashk (dn_key right) =? hashk (dn_key this)) = false) by (apply N.eqb_neq; congruence).
  destruct this as [l|s], right as [l'|s']; cbn [hmt_leaf dn_key dn_node] in *.
  - unfold htm_lnode in H. rewrite Hne' in H. eapply (htm_apart_found (DNL l')); eassumption.
  - unfold hmt_lsnode in H. rewrite Hne in H. eapply (hmt_apart_found _ (DNS s')); eassumption.
  - unfold htm_lsnode in H. rewrite Hne' in H. eapply (htm_apart_found (DNL l')); eassumption.
  - unfold hmt_snode in H. rewrite Hne in H. eapply (hmt_apart_found _ (DNS s')); eassumption.
Qed.

Lemma add_later (a a' : hacc R) i (n : hnres R) (w : heap) : hpush_new rd w a i n = Ret a' -> later a a'.
Proof. intros H. apply hpush_new_later in H. destruct H as (H1 & H2 & H3). unfold later. rewrite H1, H2, H3. split; [apply incl_appl, incl_refl|auto]. Qed.
Lemma push_later (a a' : hacc R) i n z r : hpush rd a i n z r = Ret a' -> later a a'.
Proof. intros H. apply hpush_later in H. destruct H as (H1 & H2 & H3). unfold later. rewrite H1, H2, H3. split; [apply incl_appl, incl_refl|auto]. Qed.
Lemma later_ul (a a' : hacc R) : later a a' -> later a (hset_ul a').
Proof. intros (H1 & H2 & H3). split; [exact H1|]. split; [reflexivity|exact H3]. Qed.
Lemma later_ur (a a' : hacc R) : later a a' -> later a (hset_ur a').
Proof. intros (H1 & H2 & H3). split; [exact H1|]. split; [exact H2|reflexivity]. Qed.

Lemma htm_kept keep : kept (htm_add rd keep) (htm_lone rdef rd st op) (htm_rone rdef rd mop) htm_done (htm_leaf rd both op mop)
  (found_in c) (fun _ _ => False) (fun _ => True) (no_hash x0) (fun t w => holds t w (d_node c)) gathered.
Proof.
  constructor; try contradiction.
  - intros w w' n. apply found_ext.
  - intros w a bits values x. apply (found_down c x0 op), Hf.
  - auto.
  - intros a bits values x n. apply no_hash_down.
  - intros n d p w t w' HW Hi H. eapply h_transform_found; eassumption.
  - intros a i l or t w a' Hi Hg H. destruct t as [z|n]; cbn [htm_add unwrap bind] in H; apply bind_ret in H; destruct H as (a1 & H1 & H).
    + apply (push_gathered _ _ _ _ _ _ w) in H1; [|exact Hi]. destruct keep; injection H as <-; exact H1.
    + apply (push_new_gathered _ _ _ _ w) in H1; [|exact Hg]. injection H as <-. exact H1.
  - intros a i ol or t w a' H. destruct t as [z|n]; cbn [htm_add] in H; apply bind_ret in H; destruct H as (a1 & H1 & H).
    + apply bind_ret in H. destruct H as (a2 & H2 & H). apply push_later in H2. destruct keep; injection H as <-; [exact H2|apply later_ul, H2].
    + injection H as <-. apply add_later in H1. apply later_ul, H1.
  - apply gathered_keep.
  - intros a w t w' Hq H. unfold htm_done in H. destruct (ha_ul a); [injection H as <- <-; exact I|]. eapply finish_gathered; eassumption.
  - intros x y d p w t w' HW HWr [(Hi & Hno)|([] & _)] H. eapply htm_leaf_found; eassumption.
  - intros n w. apply h_transform_grows.
  - intros n w. apply as_t_grows, h_transmute_grows.
  - intros a w. unfold htm_done. gmore.
  - intros x y d w. apply htm_leaf_grows.
Qed.
Lemma hmt_kept keep : kept (hmt_add rd keep) (hmt_lone rdef rd mop) (hmt_rone rdef rd st op) hmt_done (hmt_leaf rd htob mop op)
  (fun _ _ => False) (found_in c) (no_hash x0) (fun _ => True) (fun t w => holds t w (d_node c)) gathered.
Proof.
  constructor; try contradiction.
  - intros w w' n. apply found_ext.
  - intros w a bits values x. apply (found_down c x0 op), Hf.
  - intros a bits values x n. apply no_hash_down.
  - auto.
  - intros n d p w t w' HW Hi H. eapply h_transform_found; eassumption.
  - intros a i ol r t w a' Hi Hg H. destruct t as [z|n]; cbn [hmt_add unwrap bind] in H; apply bind_ret in H; destruct H as (a1 & H1 & H).
    + apply (push_gathered _ _ _ _ _ _ w) in H1; [|exact Hi]. destruct keep; injection H as <-; exact H1.
    + apply (push_new_gathered _ _ _ _ w) in H1; [|exact Hg]. injection H as <-. exact H1.
  - intros a i ol or t w a' H. destruct t as [z|n]; cbn [hmt_add] in H; apply bind_ret in H; destruct H as (a1 & H1 & H).
    + apply bind_ret in H. destruct H as (a2 & H2 & H). apply push_later in H2. destruct keep; injection H as <-; [exact H2|apply later_ur, H2].
    + injection H as <-. apply add_later in H1. apply later_ur, H1.
  - apply gathered_keep.
  - intros a w t w' Hq H. unfold hmt_done in H. destruct (ha_ur a); [injection H as <- <-; exact I|]. eapply finish_gathered; eassumption.
  - intros x y d p w t w' HW HWr [([] & _)|(Hi & Hno)] H. eapply hmt_leaf_found; eassumption.
  - intros n w. apply as_t_grows, h_transmute_grows.
  - intros n w. apply h_transform_grows.
  - intros a w. unfold hmt_done. gmore.
  - intros x y d w. apply hmt_leaf_grows.
Qed.
End Other.

Theorem h_tm_found {L W} {KL : Key L} (both : transform_op ((K * V) * (L * W)) V R) mop n right d p w t w' :
  wf d p (strip n) -> wf d p (strip right) -> found_in c w n -> no_hash x0 right -> h_tm rdef rd st both op mop n right d w = Ret (t, w') -> holds t w' (d_node c).
Proof.
  intros HW HWr Hi Hno H. unfold h_tm in H.
  eapply (h_joint_stay rdef rd _ _ _ _ _ _ _ _ _ _ _ _ _ _ _ (htm_kept both mop true)); [| | | |exact HW|exact HWr|left; split; [exact Hi|exact Hno]|exact H].
  - split; intros x m e v; [exact (h_leaf_grows rdef _ _ _ _ _ _ _ _ _ _ _ (htm_kept both mop (match x with DNL _ => false | DNS _ => true end)) x m e v)|exact (h_leaf_grows rdef _ _ _ _ _ _ _ _ _ _ _ (hmt_kept (tflip both) mop (match x with DNL _ => false | DNS _ => true end)) x m e v)].
  - intros x m e q v t1 v' H1 H2 Hh Hx. exact (h_leaf_stay rdef rd _ _ _ _ _ _ _ _ _ _ _ (htm_kept both mop (match x with DNL _ => false | DNS _ => true end)) x m e q v t1 v' H1 H2 Hh Hx).
  - intros x m e q v t1 v' H1 H2 Hh Hx. refine (h_leaf_stay rdef rd _ _ _ _ _ _ _ _ _ _ _ (hmt_kept (tflip both) mop (match x with DNL _ => false | DNS _ => true end)) x m e q v t1 v' H2 H1 _ Hx).
    destruct Hh as [Hh|([] & _)]. right. exact Hh.
  - discriminate.
Qed.
Theorem h_mt_found {L W} {KL : Key L} (both : transform_op ((L * W) * (K * V)) V R) mop n right d p w t w' :
  wf d p (strip n) -> wf d p (strip right) -> found_in c w right -> no_hash x0 n -> h_mt rdef rd st both mop op n right d w = Ret (t, w') -> holds t w' (d_node c).
Proof.
  intros HW HWr Hi Hno H. unfold h_mt in H.
  eapply (h_joint_stay rdef rd _ _ _ _ _ _ _ _ _ _ _ _ _ _ _ (hmt_kept both mop true)); [| | | |exact HW|exact HWr|right; split; [exact Hi|exact Hno]|exact H].
  - split; intros x m e v; [exact (h_leaf_grows rdef _ _ _ _ _ _ _ _ _ _ _ (hmt_kept both mop (match x with DNL _ => false | DNS _ => true end)) x m e v)|exact (h_leaf_grows rdef _ _ _ _ _ _ _ _ _ _ _ (htm_kept (tflip both) mop (match x with DNL _ => false | DNS _ => true end)) x m e v)].
  - intros x m e q v t1 v' H1 H2 Hh Hx. exact (h_leaf_stay rdef rd _ _ _ _ _ _ _ _ _ _ _ (hmt_kept both mop (match x with DNL _ => false | DNS _ => true end)) x m e q v t1 v' H1 H2 Hh Hx).
  - intros x m e q v t1 v' H1 H2 Hh Hx. refine (h_leaf_stay rdef rd _ _ _ _ _ _ _ _ _ _ _ (htm_kept (tflip both) mop (match x with DNL _ => false | DNS _ => true end)) x m e q v t1 v' H2 H1 _ Hx).
    destruct Hh as [([] & _)|Hh]. left. exact Hh.
  - discriminate.
Qed.

(** ** transform_with_transformed *)
Definition left_of (t : hjres R) (w : heap) : Prop := match t with HJL _ => True | HJN n => holds (HTN n) w (d_node c) | _ => False end.
Definition right_of (t : hjres R) (w : heap) : Prop := match t with HJR _ => True | HJN n => holds (HTN n) w (d_node c) | _ => False end.
Lemma flip_left t w : right_of t w -> left_of (hjres_flip t) w.
Proof. destruct t; cbn; auto. Qed.
Lemma flip_right t w : left_of t w -> right_of (hjres_flip t) w.
Proof. destruct t; cbn; auto. Qed.
Lemma ht_left_of t w : holds t w (d_node c) -> left_of (ht_left t) w.
Proof. destruct t; cbn; auto. Qed.
Lemma ht_right_of t w : holds t w (d_node c) -> right_of (ht_right t) w.
Proof. destruct t; cbn; auto. Qed.
Lemma as_flip_inv (o : outcome (hjres R * heap)) t w' : as_flip o = Ret (t, w') -> exists u, o = Ret (u, w') /\ t = hjres_flip u.
Proof. unfold as_flip. intros H. apply bind_ret in H. destruct H as ([u w] & -> & H). injection H as <- <-. eauto. Qed.

Section Both.
Context (both : joint_op (K * V) V R) (oop : transform_op (K * V) V R).
Lemma htt_apart_left this right d p w t w' : wf d p (strip (dn_node this)) -> found_in c w (dn_node this) ->
  htt_apart rd op oop this right d w = Ret (t, w') -> left_of t w'.
Proof.
  unfold htt_apart. intros HW Hi H. apply bind_ret in H. destruct H as ([l w1] & H1 & H). apply bind_ret in H. destruct H as ([r w2] & H2 & H).
  apply bind_ret in H. destruct H as ([lf rf] & _ & H). pose proof (hn_transform_found rdef rd c x0 op this d p w l w1 Hf HW Hi H1) as Hl.
  pose proof (hn_transform_grows rd op this w l w1 H1) as He1. pose proof (hn_transform_grows rd oop right w1 r w2 H2) as He2.
  apply (holds_ext c l _ _ He2) in Hl.
  destruct (holds_out c l w2 (hnext_node (dn_next this)) Hl) as (a & Ha & Hb).
  { rewrite next_handle. apply found_below. eapply found_ext; [exact (ext_trans _ _ _ He1 He2)|exact Hi]. }
  rewrite Ha in H. destruct (htout _ r) as [b|].
  - unfold as_j in H. apply bind_ret in H. destruct H as ([y w3] & H3 & H). injection H as <- <-.
    destruct (hlift_found c _ _ _ _ _ _ _ _ H3 (or_introl Hb)) as (y' & z & -> & Hy). exact Hy.
  - injection H as <- <-. apply ht_left_of, holds_with, Hl.
Qed.
Lemma htt_apart_right this right d p w t w' : wf d p (strip (dn_node right)) -> found_in c w (dn_node right) ->
  htt_apart rd oop op this right d w = Ret (t, w') -> right_of t w'.
Proof.
  unfold htt_apart. intros HW Hi H. apply bind_ret in H. destruct H as ([l w1] & H1 & H). apply bind_ret in H. destruct H as ([r w2] & H2 & H).
  apply bind_ret in H. destruct H as ([lf rf] & _ & H). pose proof (hn_transform_grows rd oop this w l w1 H1) as He1.
  apply (found_ext c _ _ _ He1) in Hi. pose proof (hn_transform_found rdef rd c x0 op right d p w1 r w2 Hf HW Hi H2) as Hr.
  pose proof (hn_transform_grows rd op right w1 r w2 H2) as He2.
  destruct (holds_out c r w2 (hnext_node (dn_next right)) Hr) as (a & Ha & Hb).
  { rewrite next_handle. apply found_below. eapply found_ext; eassumption. }
  rewrite Ha in H. destruct (htout _ l) as [b|].
  - unfold as_j in H. apply bind_ret in H. destruct H as ([y w3] & H3 & H). injection H as <- <-.
    destruct (hlift_found c _ _ _ _ _ _ _ _ H3 (or_intror Hb)) as (y' & z & -> & Hy). exact Hy.
  - injection H as <- <-. apply ht_right_of, holds_with, Hr.
Qed.
Lemma htt_leaf_left this right d p w t w' : wf d p (strip (dn_node this)) -> wf d p (strip (dn_node right)) ->
  found_in c w (dn_node this) -> no_hash x0 (dn_node right) -> htt_leaf rd both op oop this right d w = Ret (t, w') -> left_of t w'.
Proof.
  intros HW HWr Hi Hno H. pose proof (found_hash c x0 op w d p this Hf Hi HW) as Hk. pose proof (no_hash_key x0 right Hno) as Hk'.
  assert (Hne : (hashk (dn_key this) =? hashk (dn_key right)) = false) by (apply N.eqb_neq; congruence).
  assert (Hne' : (hashk (dn_key right) =? hashk (dn_key this)) = false) by (apply N.eqb_neq; congruence).
  destruct this as [l|s], right as [l'|s']; cbn [htt_leaf dn_key dn_node] in *.
  - unfold htt_lnode in H. rewrite Hne in H. eapply (htt_apart_left (DNL l)); eassumption.
  - unfold htt_lsnode in H. rewrite Hne in H. eapply (htt_apart_left (DNL l)); eassumption.
  - apply as_flip_inv in H. destruct H as (u & H & ->). unfold htt_lsnode in H. rewrite Hne' in H. apply flip_left. eapply (htt_apart_right _ (DNS s)); eassumption.
  - unfold htt_snode in H. rewrite Hne in H. eapply (htt_apart_left (DNS s)); eassumption.
Qed.
Lemma htt_leaf_right this right d p w t w' : wf d p (strip (dn_node this)) -> wf d p (strip (dn_node right)) ->
  found_in c w (dn_node right) -> no_hash x0 (dn_node this) -> htt_leaf rd both oop op this right d w = Ret (t, w') -> right_of t w'.
Proof.
  intros HW HWr Hi Hno H. pose proof (found_hash c x0 op w d p right Hf Hi HWr) as Hk. pose proof (no_hash_key x0 this Hno) as Hk'.
  assert (Hne : (hashk (dn_key this) =? hashk (dn_key right)) = false) by (apply N.eqb_neq; congruence).
  assert (Hne' : (hashk (dn_key right) =? hashk (dn_key this)) = false) by (apply N.eqb_neq; congruence).
  destruct this as [l|s], right as [l'|s']; cbn [htt_leaf dn_key dn_node] in *.
  - unfold htt_lnode in H. rewrite Hne in H. eapply (htt_apart_right _ (DNL l')); eassumption.
  - unfold htt_lsnode in H. rewrite Hne in H. eapply (htt_apart_right _ (DNS s')); eassumption.
  - apply as_flip_inv in H. destruct H as (u & H & ->). unfold htt_lsnode in H. rewrite Hne' in H. apply flip_right. eapply (htt_apart_left (DNL l')); eassumption.
  - unfold htt_snode in H. rewrite Hne in H. eapply (htt_apart_right _ (DNS s')); eassumption.
Qed.

Lemma htt_add_later (a a' : hacc R) i ol or t (w : heap) : htt_add rd a i ol or t w = Ret a' -> later a a'.
Proof.
  intros H. destruct t as [z|z|z|n]; cbn [htt_add] in H; apply bind_ret in H; destruct H as (a1 & H1 & H).
  - apply push_later in H. exact H.
  - apply bind_ret in H. destruct H as (a2 & H2 & H). apply push_later in H2. injection H as <-. apply later_ur, H2.
  - apply bind_ret in H. destruct H as (a2 & H2 & H). apply push_later in H2. injection H as <-. apply later_ul, H2.
  - injection H as <-. apply add_later in H1. apply later_ur, later_ul, H1.
Qed.
Lemma finish_left (a : hacc R) w t w' : gathered a w -> as_j (hfinish a w) = Ret (t, w') -> left_of t w' /\ right_of t w'.
Proof.
  intros (y & Hy & Hb) H. unfold as_j in H. apply bind_ret in H. destruct H as ([t1 w2] & H1 & H). injection H as <- <-.
  destruct (hfinish_holds _ _ _ _ _ _ Hy Hb H1) as (y' & r & -> & Hb2). split; exact Hb2.
Qed.

Lemma left_kept : kept (htt_add rd) (htt_lone rdef rd st op) (htt_rone rdef rd st oop) htt_done (htt_leaf rd both op oop)
  (found_in c) (fun _ _ => False) (fun _ => True) (no_hash x0) left_of (fun a w => gathered a w /\ ha_ur a = false).
Proof.
  constructor; try contradiction.
  - intros w w' n. apply found_ext.
  - intros w a bits values x. apply (found_down c x0 op), Hf.
  - auto.
  - intros a bits values x n. apply no_hash_down.
  - intros n d p w t w' HW Hi H. unfold htt_lone in H. apply bind_ret in H. destruct H as ([u w1] & H1 & H). injection H as <- <-.
    apply ht_left_of. eapply h_transform_found; eassumption.
  - intros a i l or t w a' Hi Hg H. destruct t as [z|z|z|n]; try (destruct Hg; fail); cbn [htt_add unwrap bind] in H; apply bind_ret in H; destruct H as (a1 & H1 & H); injection H as <-.
    + apply (push_gathered _ _ _ _ _ _ w) in H1; [|exact Hi]. split; [exact H1|reflexivity].
    + apply (push_new_gathered _ _ _ _ w) in H1; [|exact Hg]. split; [exact H1|reflexivity].
  - intros a i ol or t w a'. apply htt_add_later.
  - intros a w a' w' Hl He (Hq & Hu). split; [eapply gathered_keep; eassumption|apply Hl, Hu].
  - intros a w t w' (Hq & Hu) H. unfold htt_done in H. rewrite Hu in H. destruct (ha_ul a); [injection H as <- <-; exact I|].
    eapply finish_left; eassumption.
  - intros x y d p w t w' HW HWr [(Hi & Hno)|([] & _)] H. exact (htt_leaf_left x y d p w t w' HW HWr Hi Hno H).
  - intros n w. unfold htt_lone. gmore.
  - intros n w. unfold htt_rone. gmore.
  - intros a w. unfold htt_done. gmore.
  - intros x y d w. apply htt_leaf_grows.
Qed.
Lemma right_kept : kept (htt_add rd) (htt_lone rdef rd st oop) (htt_rone rdef rd st op) htt_done (htt_leaf rd both oop op)
  (fun _ _ => False) (found_in c) (no_hash x0) (fun _ => True) right_of (fun a w => gathered a w /\ ha_ul a = false).
Proof.
  constructor; try contradiction.
  - intros w w' n. apply found_ext.
  - intros w a bits values x. apply (found_down c x0 op), Hf.
  - intros a bits values x n. apply no_hash_down.
  - auto.
  - intros n d p w t w' HW Hi H. unfold htt_rone in H. apply bind_ret in H. destruct H as ([u w1] & H1 & H). injection H as <- <-.
    apply ht_right_of. eapply h_transform_found; eassumption.
  - intros a i ol r t w a' Hi Hg H. destruct t as [z|z|z|n]; try (destruct Hg; fail); cbn [htt_add unwrap bind] in H; apply bind_ret in H; destruct H as (a1 & H1 & H); injection H as <-.
    + apply (push_gathered _ _ _ _ _ _ w) in H1; [|exact Hi]. split; [exact H1|reflexivity].
    + apply (push_new_gathered _ _ _ _ w) in H1; [|exact Hg]. split; [exact H1|reflexivity].
  - intros a i ol or t w a'. apply htt_add_later.
  - intros a w a' w' Hl He (Hq & Hu). split; [eapply gathered_keep; eassumption|apply Hl, Hu].
  - intros a w t w' (Hq & Hu) H. unfold htt_done in H. rewrite Hu in H. destruct (ha_ur a); [injection H as <- <-; exact I|].
    eapply finish_left; eassumption.
  - intros x y d p w t w' HW HWr [([] & _)|(Hi & Hno)] H. exact (htt_leaf_right x y d p w t w' HW HWr Hi Hno H).
  - intros n w. unfold htt_lone. gmore.
  - intros n w. unfold htt_rone. gmore.
  - intros a w. unfold htt_done. gmore.
  - intros x y d w. apply htt_leaf_grows.
Qed.
Lemma not_removed z : op <> TRemoved z.
Proof. intros ->. destruct Hf as (_ & Hu & e & He & _). discriminate (Hu e He). Qed.
End Both.

Theorem h_tt_left both oop n right d p w t w' : wf d p (strip n) -> wf d p (strip right) -> found_in c w n -> no_hash x0 right ->
  h_tt rdef rd st both op oop n right d w = Ret (t, w') -> left_of t w'.
Proof.
  intros HW HWr Hi Hno H. unfold h_tt in H.
  eapply (h_joint_stay rdef rd _ _ _ _ _ _ _ _ _ _ _ _ _ _ _ (left_kept both oop)); [| | | |exact HW|exact HWr|left; split; [exact Hi|exact Hno]|exact H].
  - split; intros x m e v; [exact (h_leaf_grows rdef _ _ _ _ _ _ _ _ _ _ _ (left_kept both oop) x m e v)|].
    apply as_flip_grows. exact (h_leaf_grows rdef _ _ _ _ _ _ _ _ _ _ _ (right_kept (jflip both) oop) x m e v).
  - intros x m e q v t1 v' H1 H2 Hh Hx. exact (h_leaf_stay rdef rd _ _ _ _ _ _ _ _ _ _ _ (left_kept both oop) x m e q v t1 v' H1 H2 Hh Hx).
  - intros x m e q v t1 v' H1 H2 Hh Hx. apply as_flip_inv in Hx. destruct Hx as (u & Hx & ->). apply flip_left.
    refine (h_leaf_stay rdef rd _ _ _ _ _ _ _ _ _ _ _ (right_kept (jflip both) oop) x m e q v u v' H2 H1 _ Hx).
    destruct Hh as [Hh|([] & _)]. right. exact Hh.
  - intros t1 w1 a bits values x a' rb Hs _. pose proof not_removed as Hr. unfold htt_short in Hs.
    destruct both, op, oop; try discriminate Hs; try (exfalso; eapply Hr; reflexivity); injection Hs as <-; exact I.
Qed.
Theorem h_tt_right both oop n right d p w t w' : wf d p (strip n) -> wf d p (strip right) -> found_in c w right -> no_hash x0 n ->
  h_tt rdef rd st both oop op n right d w = Ret (t, w') -> right_of t w'.
Proof.
  intros HW HWr Hi Hno H. unfold h_tt in H.
  eapply (h_joint_stay rdef rd _ _ _ _ _ _ _ _ _ _ _ _ _ _ _ (right_kept both oop)); [| | | |exact HW|exact HWr|right; split; [exact Hi|exact Hno]|exact H].
  - split; intros x m e v; [exact (h_leaf_grows rdef _ _ _ _ _ _ _ _ _ _ _ (right_kept both oop) x m e v)|].
    apply as_flip_grows. exact (h_leaf_grows rdef _ _ _ _ _ _ _ _ _ _ _ (left_kept (jflip both) oop) x m e v).
  - intros x m e q v t1 v' H1 H2 Hh Hx. exact (h_leaf_stay rdef rd _ _ _ _ _ _ _ _ _ _ _ (right_kept both oop) x m e q v t1 v' H1 H2 Hh Hx).
  - intros x m e q v t1 v' H1 H2 Hh Hx. apply as_flip_inv in Hx. destruct Hx as (u & Hx & ->). apply flip_right.
    refine (h_leaf_stay rdef rd _ _ _ _ _ _ _ _ _ _ _ (left_kept (jflip both) oop) x m e q v u v' H2 H1 _ Hx).
    destruct Hh as [([] & _)|Hh]. left. exact Hh.
  - intros t1 w1 a bits values x a' rb Hs _. pose proof not_removed as Hr. unfold htt_short in Hs.
    destruct both, oop, op; try discriminate Hs; try (exfalso; eapply Hr; reflexivity); injection Hs as <-; exact I.
Qed.
End One.
