(** When a merge that transmutes one of its maps hands back the other: the
    transmuted map has no key of its own and no key that shares its hash with
    another key of the other map, and nothing is changed. *)
From Coq Require Import NArith Arith List Bool Lia ZifyBool ZifyN ZifyNat Permutation.
From Verif Require Import Base Words WordsP Flag FlagP Bia BiaP Node Spec SpecP Inv NodeP InsertP TrieP Api ApiP
  Trans Transform LoopP SpecT TransformP TransApiP Joint SpecJ JoinP JointP JointMP JointLeafP JointNodeP JointApiP
  JointT JointTLeafP JointTP JointTApiP Reach ReachP MapP TransMapP JointMapP JointTMapP StratP KeepP.
Import ListNotations.
Open Scope N_scope.

Definition same {K V R} (t : tres K V R) : Prop := tu t = true.

Section Kept.
Context {E : Env} {K V L W R : Type} {KK : Key K} {KL : Key L}.

Record tkept (both : transform_op ((K * V) * (L * W)) V R) (lop : transform_op (K * V) V R)
    (ln : list (K * V)) (lr : list (L * W)) : Prop := TKept {
  tk_sub : forall c, lookup c lr <> None -> lookup c ln <> None;
  tk_free : forall c c', lookup c ln <> None -> lookup c' lr <> None -> hash c = hash c' -> c = c';
  tk_lop : forall c e, lookup c ln = Some e -> lookup c lr = None -> stays (tcall lop e);
  tk_both : forall c e e', lookup c ln = Some e -> lookup c lr = Some e' -> stays (tcall both (e, e'))
}.

Lemma tkept_part both lop ln lr ln' lr' : hpart ln lr ln' lr' -> tkept both lop ln lr -> tkept both lop ln' lr'.
Proof.
  intros HP [H1 H2 H3 H4]. apply hpart_part in HP. split.
  - intros c Hc. destruct (HP c (or_intror Hc)) as [-> Hb]. apply H1. congruence.
  - intros c c' Hc Hc'. destruct (HP c (or_introl Hc)) as [Hb _]. destruct (HP c' (or_intror Hc')) as [_ Hb'].
    apply H2; congruence.
  - intros c e Hc Hr. destruct (HP c) as [Ha Hb]; [left; congruence|]. apply (H3 c); congruence.
  - intros c e e' Hc Hr. destruct (HP c) as [Ha Hb]; [left; congruence|]. apply (H4 c); congruence.
Qed.

Lemma tkept_void both lop (l : list (L * W)) : uniq l -> l <> [] -> tkept both lop [] l -> False.
Proof.
  intros HU Hne [H1 _ _ _]. destruct l as [|e l]; [contradiction|]. apply (H1 (ecls e)); [|reflexivity].
  rewrite (in_lookup _ _ HU (or_introl eq_refl)). discriminate.
Qed.

(** Entries of equal hash cannot meet the other map. *)
Lemma tkept_list both lop d p (l : lnode K V) (lr : list (L * W)) : uniq lr -> lr <> [] -> wf d p (ML l) ->
  tkept both lop (l_visit l) lr -> False.
Proof.
  intros HU Hne HW [H1 H2 _ _]. apply (free_single d p l HW). destruct lr as [|e' lr]; [contradiction|].
  assert (Hl : lookup (ecls e') (e' :: lr) <> None) by (rewrite (in_lookup _ _ HU (or_introl eq_refl)); discriminate).
  pose proof (H1 _ Hl) as Hm. inversion HW as [|? ? ? h HL Hp|]; subst. destruct HL as (_ & HUl & Hh).
  assert (Ha : forall c, lookup c (l_visit l) <> None -> hash c = h).
  { intros c Hc. destruct (lookup c (l_visit l)) as [e|] eqn:He; [|contradiction]. apply lookup_in in He. destruct He as [He <-].
    apply Hh. assumption. }
  intros c c' Hc Hc' _. rewrite (H2 c (ecls e')), (H2 c' (ecls e')); try assumption; [reflexivity|..];
    rewrite !Ha by assumption; reflexivity.
Qed.

End Kept.

Section Family.
Context {E : Env} {K V L W R : Type} {KK : Key K} {KL : Key L}.
Context (rdef : R) (rd : R -> R -> R) (st : strategy).
Notation s_e s := (s_key s, s_value s).

Lemma tcall_tflip {A B O} (op : transform_op (A * B) O R) a b : tcall (tflip op) (b, a) = tcall op (a, b).
Proof. destruct op; reflexivity. Qed.

Lemma next_uniq d p (n : mnode L W) : wf d p n -> uniq (m_visit n).
Proof. intros H. eapply wf_uniq; eassumption. Qed.

Section Ops.
Context (both : transform_op ((K * V) * (L * W)) V R) (lop : transform_op (K * V) V R) (rop : transmute_op (L * W) K V R).
(** The same operation with its arguments exchanged. *)
Context (both' : transform_op ((L * W) * (K * V)) V R) (Hb : forall a b, tcall both' (b, a) = tcall both (a, b)).

Lemma tkept_matched d p (this : lnext K V) (right : lnext L W) : wf d p (next_mnode this) -> wf d p (next_mnode right) ->
  tkept both lop (m_visit (next_mnode this)) (m_visit (next_mnode right)) ->
  exists s r, this = NS s /\ right = NS r /\ cls (s_key s) = cls (s_key r) /\ stays (tcall both (s_e s, s_e r)).
Proof.
  intros HW HWr HK. pose proof (next_uniq d p _ HWr) as HUr.
  destruct this as [l|s].
  { exfalso. eapply (tkept_list both lop d p l); [exact HUr|apply next_nonempty|exact HW|exact HK]. }
  destruct HK as [H1 H2 H3 H4]. destruct right as [r|r].
  { exfalso. apply (free_single d p r HWr). intros c c' Hc Hc' Hh. apply H2; [|assumption|assumption]. apply H1. assumption. }
  exists s, r. split; [reflexivity|]. split; [reflexivity|]. cbn [next_mnode m_visit] in *.
  assert (Hr : lookup (cls (s_key r)) (s_visit r) = Some (s_e r)).
  { rewrite single_lookup. destruct (ceqb_spec (cls (s_key r)) (cls (s_key r))); [reflexivity|contradiction]. }
  assert (Hc : cls (s_key s) = cls (s_key r)).
  { specialize (H1 (cls (s_key r))). rewrite Hr, single_lookup in H1.
    destruct (ceqb_spec (cls (s_key s)) (cls (s_key r))); [assumption|]. exfalso. apply H1; [discriminate|reflexivity]. }
  split; [assumption|]. apply (H4 (cls (s_key r))); [|assumption]. rewrite single_lookup.
  destruct (ceqb_spec (cls (s_key s)) (cls (s_key r))); [reflexivity|contradiction].
Qed.

Lemma tm_leaf_keeps d p this right : wf d p (next_mnode this) -> wf d p (next_mnode right) ->
  tkept both lop (m_visit (next_mnode this)) (m_visit (next_mnode right)) -> holds same (tm_leaf rd both lop rop this right d).
Proof.
  intros HW HWr HK. destruct (tkept_matched d p this right HW HWr HK) as (s & r & -> & -> & Hc & Hs).
  cbn [tm_leaf]. unfold tm_snode. assert (Hk' : hashk (s_key s) = hashk (s_key r)) by (unfold hashk; rewrite Hc; reflexivity).
  rewrite Hk', N.eqb_refl. apply holds_ret. unfold tm_s_impl. cbn [fst]. rewrite keqb_cls.
  destruct (ceqb_spec (cls (s_key s)) (cls (s_key r))) as [_|Hno]; [|contradiction].
  destruct (tcall both _); try contradiction; reflexivity.
Qed.
Lemma mt_leaf_keeps d p this right : wf d p (next_mnode this) -> wf d p (next_mnode right) ->
  tkept both lop (m_visit (next_mnode right)) (m_visit (next_mnode this)) ->
  holds same (mt_leaf rd both' rop lop this right d).
Proof.
  intros HW HWr HK. destruct (tkept_matched d p right this HWr HW HK) as (s & r & -> & -> & Hc & Hs).
  cbn [mt_leaf]. unfold mt_snode. assert (Hk' : hashk (s_key r) = hashk (s_key s)) by (unfold hashk; rewrite Hc; reflexivity).
  rewrite Hk', N.eqb_refl. apply holds_ret. unfold mt_s_impl. rewrite keqb_cls.
  destruct (ceqb_spec (cls (s_key r)) (cls (s_key s))) as [_|Hno]; [|congruence].
  rewrite Hb. destruct (tcall both _); try contradiction; reflexivity.
Qed.

Lemma tm_lone_keeps d p (n : mnode K V) : wf d p n -> m_visit n <> [] -> tkept both lop (m_visit n) [] ->
  holds same (m_transform rdef rd st lop n).
Proof.
  intros HW Hne [_ _ H3 _]. eapply (m_stays rdef rd st lop d p n HW Hne). intros e He. apply (H3 (ecls e)); [|reflexivity].
  apply in_lookup; [|assumption]. eapply wf_uniq; eassumption.
Qed.

Lemma tm_flag t ol or c : same t -> tm_ac (L := L) (W := W) true t ol or = Ret c ->
  cl (Some (fst (fst c), tred t, snd (fst c), snd c) : cont K V R) = true.
Proof. destruct t; cbn [tm_ac]; intros H; try discriminate. destruct ol; try discriminate. intros [= <-]. reflexivity. Qed.
Lemma mt_flag t ol or c : same t -> mt_ac (K := L) (V := W) true t ol or = Ret c ->
  cu (Some (fst (fst c), tred t, snd (fst c), snd c) : cont K V R) = true.
Proof. destruct t; cbn [mt_ac]; intros H; try discriminate. destruct or; try discriminate. intros [= <-]. reflexivity. Qed.
Lemma tm_done_keeps (g : N -> cont K V R) (r : R) : (forall i, In i (range 0 (max_ones fw)) -> cl (g i) = true) -> holds same (tm_done (total g r)).
Proof.
  intros H. assert (Hg : a_ul (total g r) = true) by (apply forallb_forall; exact H). unfold tm_done. rewrite Hg. apply holds_ret. reflexivity.
Qed.
Lemma mt_done_keeps (g : N -> cont K V R) (r : R) : (forall i, In i (range 0 (max_ones fw)) -> cu (g i) = true) -> holds same (mt_done (total g r)).
Proof.
  intros H. assert (Hg : a_ur (total g r) = true) by (apply forallb_forall; exact H). unfold mt_done. rewrite Hg. apply holds_ret. reflexivity.
Qed.

Lemma tm_tree_leaf_keeps d p n right : wf d p n -> wf d p (next_mnode right) ->
  tkept both lop (m_visit n) (m_visit (next_mnode right)) -> holds same (tm_tree_leaf rdef rd st both lop rop right n d).
Proof.
  intros HW HWr HK. unfold tm_tree_leaf. destruct right as [r|r].
  { exfalso. apply (free_single d p r HWr). destruct HK as [H1 H2 _ _]. intros c c' Hc Hc' Hh. apply H2; [|assumption|assumption]. apply H1. assumption. }
  refine (m_leaf_holds rdef rd (tm_ac true) tred (tm_add rd true) (tm_add_ac rd true) cl eq_refl same tm_flag tm_done tm_done_keeps
    (tkept both lop) (tkept_part both lop) _ _ tm_lone_keeps _ _ tm_leaf_keeps n d p (NS r) HW HWr HK).
  intros d0 p0 n0 HW0 Hne HK0. exfalso. eapply (tkept_void both lop); [|exact Hne|exact HK0]. eapply wf_uniq; eassumption.
Qed.

Lemma mt_tree_leaf_keeps d p n (right : lnext K V) : wf d p n -> wf d p (next_mnode right) ->
  tkept both lop (m_visit (next_mnode right)) (m_visit n) -> m_visit n <> [] \/ (exists s, right = NS s) ->
  holds same (mt_tree_leaf rdef rd st both' rop lop right n d).
Proof.
  intros HW HWr HK Hn. unfold mt_tree_leaf. destruct right as [r|r].
  { exfalso. destruct Hn as [Hn|[s Hs]]; [|discriminate].
    eapply (tkept_list both lop d p r); [eapply wf_uniq; exact HW|exact Hn|exact HWr|exact HK]. }
  refine (m_leaf_holds rdef rd (mt_ac true) tred (mt_add rd true) (mt_add_ac rd true) cu eq_refl same mt_flag mt_done mt_done_keeps
    (fun ln lr => tkept both lop lr ln) _ _ _ _ _ _ _ n d p (NS r) HW HWr HK).
  - intros ln lr ln' lr' HP. apply tkept_part. intros c Hc c' Hh. destruct (HP c ltac:(tauto) c' Hh). auto.
  - intros d0 p0 n0 HW0 Hne HK0. exfalso. eapply (tkept_void both lop); [|exact Hne|exact HK0]. eapply wf_uniq; eassumption.
  - intros d0 p0 n0 HW0 Hne HK0. eapply tm_lone_keeps; eassumption.
  - intros d0 p0 this0 right0 H1 H2 H3. eapply mt_leaf_keeps; eassumption.
Qed.

(** The other map is empty only below a leaf with one entry. *)
Definition meets (n : mnode K V) (right : mnode L W) : Prop := m_visit right <> [] \/ (forall l, n <> ML l).

Lemma meets_next d p (n : lnext K V) (right : mnode L W) : wf d p right -> d <> 0 \/ meets (next_mnode n) right ->
  m_visit right <> [] \/ exists s, n = NS s.
Proof.
  intros HW [Hd|[H|H]]; [left; eapply wf_nonempty; eassumption|left; assumption|]. destruct n as [l|s]; [|eauto].
  exfalso. apply (H l). reflexivity.
Qed.

End Ops.

Lemma m_tm_keeps both lop rop d p n right : wf d p n -> wf d p right -> tkept both lop (m_visit n) (m_visit right) -> d <> 0 \/ meets n right ->
  holds same (m_tm rdef rd st both lop rop n right d).
Proof.
  intros HW HWr HK HG. unfold m_tm.
  refine (m_joint_holds rdef rd (tm_ac true) tred (tm_add rd true) (tm_add_ac rd true) cl eq_refl same tm_flag tm_done tm_done_keeps
    (tkept both lop) (tkept_part both lop) _ _ (tm_lone_keeps both lop) _ _ (tm_leaf_keeps both lop rop) _ _ _ Sequential meets _ _ _ n d p right HW HWr HK HG).
  - intros d0 p0 n0 HW0 Hne HK0. exfalso. eapply (tkept_void both lop); [|exact Hne|exact HK0]. eapply wf_uniq; eassumption.
  - intros d0 p0 n0 right0 H1 H2 H3 _. eapply tm_tree_leaf_keeps; eassumption.
  - intros d0 p0 n0 right0 H1 H2 H3 H4. eapply (mt_tree_leaf_keeps both); try eassumption; [intros a b; apply tcall_tflip|]. eapply meets_next; eassumption.
  - discriminate.
Qed.
Lemma m_mt_keeps (both' : transform_op ((L * W) * (K * V)) V R) (lop : transform_op (K * V) V R) rop d p n right : wf d p n -> wf d p right -> tkept (tflip both') lop (m_visit right) (m_visit n) -> d <> 0 \/ meets right n ->
  holds same (m_mt rdef rd st both' rop lop n right d).
Proof.
  intros HW HWr HK HG. unfold m_mt.
  refine (m_joint_holds rdef rd (mt_ac true) tred (mt_add rd true) (mt_add_ac rd true) cu eq_refl same mt_flag mt_done mt_done_keeps
    (fun ln lr => tkept (tflip both') lop lr ln) _ _ _ _ _ _ _ _ _ _ Sequential (fun n right => meets right n) _ _ _ n d p right HW HWr HK HG).
  - intros ln lr ln' lr' HP. apply tkept_part. intros c Hc c' Hh. destruct (HP c ltac:(tauto) c' Hh). auto.
  - intros d0 p0 n0 HW0 Hne HK0. exfalso. eapply (tkept_void (tflip both') lop); [|exact Hne|exact HK0]. eapply wf_uniq; eassumption.
  - intros d0 p0 n0 HW0 Hne HK0. eapply tm_lone_keeps; eassumption.
  - intros d0 p0 this0 right0 H1 H2 H3. eapply (mt_leaf_keeps (tflip both')); try eassumption. intros a b. symmetry. apply tcall_tflip.
  - intros d0 p0 n0 right0 H1 H2 H3 H4. eapply (mt_tree_leaf_keeps (tflip both')); try eassumption; [intros a b; symmetry; apply tcall_tflip|]. eapply meets_next; eassumption.
  - intros d0 p0 n0 right0 H1 H2 H3 _. apply (tm_tree_leaf_keeps (tflip both') lop rop d0 p0); assumption.
  - discriminate.
Qed.
End Family.

(** * Maps *)
Section Maps.
Context {E : Env} {K V L W R : Type} {KK : Key K} {KL : Key L}.
Context (rdef : R) (rd : R -> R -> R) (st : strategy).

Lemma tkept_of (both : transform_op ((K * V) * (L * W)) V R) lop (m : trie K V) (right : trie L W) : reachable m -> reachable right ->
  (forall e', In e' (map_visit right) -> exists e, In e (map_visit m) /\ cls (fst e) = cls (fst e')) ->
  (forall e e', In e (map_visit m) -> In e' (map_visit right) -> hash (cls (fst e)) = hash (cls (fst e')) -> cls (fst e) = cls (fst e')) ->
  (forall e, In e (map_visit m) -> (forall e', In e' (map_visit right) -> cls (fst e) <> cls (fst e')) -> exists x, tcall lop e = VUnchanged x) ->
  (forall e e', In e (map_visit m) -> In e' (map_visit right) -> cls (fst e) = cls (fst e') -> exists x, tcall both (e, e') = VUnchanged x) ->
  tkept both lop (map_visit m) (map_visit right).
Proof.
  intros HR HRr H1 H2 H3 H4.
  assert (HU : uniq (map_visit m)) by (apply mwf_uniq, reachable_mwf; assumption).
  assert (HUr : uniq (map_visit right)) by (apply mwf_uniq, reachable_mwf; assumption).
  split.
  - intros c Hc. destruct (lookup c (map_visit right)) as [e'|] eqn:He'; [|contradiction]. apply lookup_in in He'. destruct He' as [He' <-].
    destruct (H1 e' He') as (e & He & Hce).
    unfold ecls in *. rewrite <- Hce. change (cls (fst e)) with (ecls e). rewrite (in_lookup _ _ HU He). discriminate.
  - intros c c' Hc Hc'. destruct (lookup c (map_visit m)) as [e|] eqn:He; [|contradiction]. apply lookup_in in He. destruct He as [He <-].
    destruct (lookup c' (map_visit right)) as [e'|] eqn:He'; [|contradiction]. apply lookup_in in He'. destruct He' as [He' <-].
    apply H2; assumption.
  - intros c e He Hn. apply lookup_in in He. destruct He as [He <-]. destruct (H3 e He) as [x Hx]; [|rewrite Hx; exact I].
    intros e' He' Hc. pose proof (in_lookup _ _ HUr He') as Hl. unfold ecls in *. rewrite Hc in Hn. congruence.
  - intros c e e' He He'. apply lookup_in in He. apply lookup_in in He'. destruct He as [He <-], He' as [He' Hc].
    destruct (H4 e e' He He' (eq_sym Hc)) as [x ->]. exact I.
Qed.

Lemma meets_of (m : trie K V) (right : trie L W) : reachable m -> reachable right ->
  (map_size right <> 0 \/ forall e e', In e (map_visit m) -> In e' (map_visit m) -> hash (cls (fst e)) = hash (cls (fst e')) -> cls (fst e) = cls (fst e')) ->
  meets m right.
Proof.
  intros HR HRr [H|H].
  - left. intros He. apply H. rewrite (mwf_size right (reachable_mwf _ HRr)). unfold map_visit. rewrite He. reflexivity.
  - right. intros l ->. apply (free_single 0 0 l (reachable_mwf _ HR)). intros c c' Hc Hc'.
    destruct (lookup c (l_visit l)) as [e|] eqn:He; [|contradiction]. apply lookup_in in He. destruct He as [He <-].
    destruct (lookup c' (l_visit l)) as [e'|] eqn:He'; [|contradiction]. apply lookup_in in He'. destruct He' as [He' <-].
    apply H; assumption.
Qed.

Lemma tkept_cnt (both : transform_op ((K * V) * (L * W)) V R) lop (m : trie K V) (right : trie L W) h : reachable right ->
  tkept both lop (map_visit m) (map_visit right) -> (cnt h (map_visit right) <= 1)%nat.
Proof.
  intros HR [H1 H _ _]. pose proof (mwf_uniq _ (reachable_mwf _ HR)) as HU. apply (cnt_free rdef rd); [assumption|].
  intros e e' He He' Hh. assert (Hl : forall e, In e (map_visit right) -> lookup (ecls e) (map_visit right) <> None).
  { intros e1 H2. rewrite (in_lookup _ _ HU H2). discriminate. }
  apply (H (ecls e) (ecls e')); [apply H1, Hl|apply Hl|]; assumption.
Qed.

Theorem tm_keep both lop rop (m : trie K V) (right : trie L W) : reachable m -> reachable right ->
  (forall e k v x, In e (map_visit right) -> mcall rop e = KTransmuted k v x -> cls k = cls (fst e)) ->
  (forall e', In e' (map_visit right) -> exists e, In e (map_visit m) /\ cls (fst e) = cls (fst e')) ->
  (forall e e', In e (map_visit m) -> In e' (map_visit right) -> hash (cls (fst e)) = hash (cls (fst e')) -> cls (fst e) = cls (fst e')) ->
  (map_size right <> 0 \/ forall e e', In e (map_visit m) -> In e' (map_visit m) -> hash (cls (fst e)) = hash (cls (fst e')) -> cls (fst e) = cls (fst e')) ->
  (forall e, In e (map_visit m) -> (forall e', In e' (map_visit right) -> cls (fst e) <> cls (fst e')) -> exists x, tcall lop e = VUnchanged x) ->
  (forall e e', In e (map_visit m) -> In e' (map_visit right) -> cls (fst e) = cls (fst e') -> exists x, tcall both (e, e') = VUnchanged x) ->
  exists r, map_tm rdef rd st both lop rop m right = Ret (m, r, Self).
Proof.
  intros HR HRr HK0 H1 H2 H3 H4 H5. pose proof (tkept_of both lop m right HR HRr H1 H2 H4 H5) as HK.
  destruct (tm_returns rdef rd st both lop rop m right HR HRr HK0) as [[_ Hret] _].
  destruct Hret as (m' & r & o & HT).
  { intros (h & _ & Hh). pose proof (tkept_cnt both lop m right h HRr HK). lia. }
  pose proof (m_tm_keeps rdef rd st both lop rop 0 0 m right (reachable_mwf _ HR) (reachable_mwf _ HRr) HK
    (or_intror (meets_of m right HR HRr H3))) as HJ.
  rewrite HT. unfold map_tm in HT. destruct (m_tm rdef rd st both lop rop m right 0) as [t| |]; cbn [bind] in HT; try discriminate.
  specialize (HJ t eq_refl). destruct t; try discriminate. injection HT as <- <- <-. eauto.
Qed.

End Maps.

Section Mirror.
Context {E : Env} {K V L W R : Type} {KK : Key K} {KL : Key L}.
Context (rdef : R) (rd : R -> R -> R) (st : strategy).

Theorem mt_keep both lop rop (m : trie K V) (right : trie L W) : reachable m -> reachable right ->
  (forall e k v x, In e (map_visit m) -> mcall lop e = KTransmuted k v x -> cls k = cls (fst e)) ->
  (forall e, In e (map_visit m) -> exists e', In e' (map_visit right) /\ cls (fst e') = cls (fst e)) ->
  (forall e e', In e (map_visit m) -> In e' (map_visit right) -> hash (cls (fst e)) = hash (cls (fst e')) -> cls (fst e) = cls (fst e')) ->
  (map_size m <> 0 \/ forall e e', In e (map_visit right) -> In e' (map_visit right) -> hash (cls (fst e)) = hash (cls (fst e')) -> cls (fst e) = cls (fst e')) ->
  (forall e', In e' (map_visit right) -> (forall e, In e (map_visit m) -> cls (fst e') <> cls (fst e)) -> exists x, tcall rop e' = VUnchanged x) ->
  (forall e e', In e (map_visit m) -> In e' (map_visit right) -> cls (fst e) = cls (fst e') -> exists x, tcall both (e, e') = VUnchanged x) ->
  exists r, map_mt rdef rd st both lop rop m right = Ret (right, r, Right).
Proof.
  intros HR HRr HK0 H1 H2 H3 H4 H5.
  assert (HK : tkept (tflip both) rop (map_visit right) (map_visit m)).
  { apply tkept_of; try assumption.
    - intros e' e He' He Hh. symmetry. apply H2; [assumption|assumption|symmetry; assumption].
    - intros e' e He' He Hc. rewrite tcall_tflip. apply H5; [assumption|assumption|symmetry; assumption]. }
  destruct (mt_returns rdef rd st both lop rop m right HR HRr HK0) as [[_ Hret] _].
  destruct Hret as (m' & r & o & HT).
  { intros (h & Hh & _). pose proof (tkept_cnt rdef rd (tflip both) rop right m h HR HK). lia. }
  pose proof (m_mt_keeps rdef rd st both rop lop 0 0 m right (reachable_mwf _ HR) (reachable_mwf _ HRr) HK
    (or_intror (meets_of right m HRr HR H3))) as HJ.
  rewrite HT. unfold map_mt in HT. destruct (m_mt rdef rd st both lop rop m right 0) as [t| |]; cbn [bind] in HT; try discriminate.
  specialize (HJ t eq_refl). destruct t; try discriminate. injection HT as <- <- <-. eauto.
Qed.

End Mirror.
