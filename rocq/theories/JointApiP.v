(** Joint operations on well-formed maps: transform_with_transmuted,
    transmute_with_transformed and transmute_with_transmuted. *)
From Coq Require Import NArith Arith List Bool Lia ZifyBool ZifyN ZifyNat Permutation.
From Verif Require Import Base Words WordsP Flag FlagP Bia BiaP Node Spec SpecP Inv NodeP InsertP TrieP Api ApiP
  Trans Transform LoopP SpecT TransformP TransApiP Joint SpecJ JoinP JointP JointMP JointLeafP JointNodeP.
Import ListNotations.
Open Scope N_scope.

Section Result.
Context {E : Env} {K V L W S X R : Type} {KK : Key K} {KL : Key L} {KS : Key S}.
Context (rdef : R) (rd : R -> R -> R).

(** [m'] and [r] are the merge of [m] and [right]. *)
Definition map_merge (g : Prop) (bi : K * V -> L * W -> option (S * X) * R) (li : K * V -> option (S * X) * R)
  (ri : L * W -> option (S * X) * R) (m : trie K V) (right : trie L W) (m' : trie S X) (r : R) : Prop :=
  mwf m' /\
  (forall c, lookup c (map_visit m') =
     match lookup c (map_visit m), lookup c (map_visit right) with
     | Some e, Some e' => fst (bi e e')
     | Some e, None => fst (li e)
     | None, Some e' => fst (ri e')
     | None, None => None
     end) /\
  Permutation (map_visit m')
    (merged_entries (fun e e' => fst (bi e e')) (fun e => fst (li e)) (fun e' => fst (ri e')) (map_visit m) (map_visit right)) /\
  (comm_monoid rdef rd -> g ->
     r = msum rdef rd (merged_reds (fun e e' => snd (bi e e')) (fun e => snd (li e)) (fun e' => snd (ri e')) (map_visit m) (map_visit right))).

Lemma map_merge_intro g bi li ri lo hi m right o r : mwf m -> mwf right ->
  jkeeps bi li ri (map_visit m) (map_visit right) ->
  owf 0 0 o -> merged (fspec bi li ri g lo hi) (map_visit m) (map_visit right) (ovisit o) ->
  (comm_monoid rdef rd -> g -> r = msum rdef rd (reds (fspec bi li ri g lo hi) (map_visit m) (map_visit right))) ->
  forall m' : trie S X, mwf m' -> map_visit m' = ovisit o -> map_merge g bi li ri m right m' r.
Proof.
  intros HW HWr HK Hw Hm Hr m' HW' HV.
  assert (HL : forall c, lookup c (map_visit m') =
     match lookup c (map_visit m), lookup c (map_visit right) with
     | Some e, Some e' => fst (bi e e')
     | Some e, None => fst (li e)
     | None, Some e' => fst (ri e')
     | None, None => None
     end).
  { intros c. rewrite HV. specialize (Hm c). unfold joined in Hm. cbn [fspec sB sL sR] in Hm.
    destruct (lookup c (map_visit m)), (lookup c (map_visit right)); assumption. }
  split; [assumption|]. split; [assumption|]. split; [|exact Hr].
  apply jkeeps_keeping in HK.
  apply lookup_ext_perm; [apply mwf_uniq; assumption| |].
  - apply merge_uniq; [apply mwf_uniq; assumption..|assumption].
  - intros c. rewrite HL. unfold merged_entries. change (@opt (S * X)) with (@olist (S * X)). rewrite (merge_lookup _ _ _ _ _ c (mwf_uniq _ HW) (mwf_uniq _ HWr) HK).
    unfold made. destruct (lookup c (map_visit m)) as [e|], (lookup c (map_visit right)) as [e'|];
      [destruct (fst (bi e e'))|destruct (fst (li e))|destruct (fst (ri e'))|]; reflexivity.
Qed.

End Result.

Section JointApi.
Context {E : Env} {K V L W R : Type} {KK : Key K} {KL : Key L}.
Context (rdef : R) (rd : R -> R -> R) (st : strategy).

(** ** Contracts *)
Lemma tm_jkeeps both lop rop (ln : list (K * V)) (lr : list (L * W)) :
  m_keeps (mcall rop) lr -> jkeeps (tm_bi (R := R) both) (tm_li lop) (tm_ri rop) ln lr.
Proof.
  intros HK c x. unfold joined. destruct (lookup c ln) as [e|] eqn:He; [|destruct (lookup c lr) as [e'|] eqn:He'; [|discriminate]].
  - apply lookup_in in He. destruct He as [He <-].
    assert (H : forall o : vres V R, Some x = t_to o e -> ecls x = ecls e) by (intros [ | | ] [=]; subst; reflexivity).
    destruct (lookup _ lr); cbn; apply H.
  - apply lookup_in in He'. destruct He' as [He' <-]. cbn. destruct (mcall rop e') as [k v r|] eqn:Hc; [|discriminate].
    intros [= ->]. exact (HK e' k v r He' Hc).
Qed.

Lemma mt_jkeeps both lop rop (ln : list (K * V)) (lr : list (L * W)) :
  m_keeps (mcall lop) ln -> jkeeps (mt_bi (R := R) both) (mt_li lop) (mt_ri rop) ln lr.
Proof.
  intros HK c x. unfold joined.
  assert (H : forall (o : vres W R) e', Some x = t_to o e' -> ecls x = ecls e') by (intros [ | | ] ? [=]; subst; reflexivity).
  destruct (lookup c ln) as [e|] eqn:He; destruct (lookup c lr) as [e'|] eqn:He'; [| | |discriminate].
  - apply lookup_in in He'. destruct He' as [_ <-]. cbn. apply H.
  - apply lookup_in in He. destruct He as [He <-]. cbn. destruct (mcall lop e) as [k v r|] eqn:Hc; [|discriminate].
    intros [= ->]. exact (HK e k v r He Hc).
  - apply lookup_in in He'. destruct He' as [_ <-]. cbn. apply H.
Qed.

Lemma mm_jkeeps {S X} {KS : Key S} (both : transmute_op ((K * V) * (L * W)) S X R) lop rop (ln : list (K * V)) (lr : list (L * W)) :
  b_keeps (mcall both) ln lr -> m_keeps (mcall lop) ln -> m_keeps (mcall rop) lr -> jkeeps (mm_bi both) (mm_li lop) (mm_ri rop) ln lr.
Proof.
  intros HB HL HR c x. unfold joined.
  destruct (lookup c ln) as [e|] eqn:He; destruct (lookup c lr) as [e'|] eqn:He'; [| | |discriminate]; cbn.
  - apply lookup_in in He'. apply lookup_in in He. destruct He as [He <-]. destruct He' as [He' Hc].
    destruct (mcall both (e, e')) as [k v r|] eqn:Hm; [|discriminate]. intros [= ->]. apply (HB e e' k v r); auto.
  - apply lookup_in in He. destruct He as [He <-]. destruct (mcall lop e) as [k v r|] eqn:Hc; [|discriminate].
    intros [= ->]. exact (HL e k v r He Hc).
  - apply lookup_in in He'. destruct He' as [He' <-]. destruct (mcall rop e') as [k v r|] eqn:Hc; [|discriminate].
    intros [= ->]. exact (HR e' k v r He' Hc).
Qed.

(** ** The operations *)
Theorem map_tm_ok both lop rop (m : trie K V) (right : trie L W) : mwf m -> mwf right -> m_keeps (mcall rop) (map_visit right) ->
  match map_tm rdef rd st both lop rop m right with
  | Ret (m', r, o) =>
      map_merge rdef rd (t_generic lop /\ m_generic rop) (tm_bi both) (tm_li lop) (tm_ri rop) m right m' r /\ (o = Self -> m' = m) /\ o <> Right /\
      ~ exists h, lh_tm (cnt h (map_visit m)) (cnt h (map_visit right))
  | Diverge => exists h, lh_tm (cnt h (map_visit m)) (cnt h (map_visit right))
  | Panic => False
  end.
Proof.
  intros HW HWr HK. pose proof (tm_jkeeps both lop rop (map_visit m) _ HK) as HJ.
  pose proof (m_tm_ok rdef rd st both lop rop 0 0 m right HW HWr HJ) as H. unfold map_tm.
  destruct (m_tm rdef rd st both lop rop m right 0) as [t| |]; cbn [bind]; [|contradiction|exact H].
  destruct H as [(H1 & H2 & H3) H4]. destruct t as [r|n].
  - destruct (H1 (Some m) eq_refl) as [Hw Hm]. split; [|split; [reflexivity|split; [discriminate|exact H4]]].
    exact (map_merge_intro rdef rd _ _ _ _ _ _ m right (Some m) r HW HWr HJ Hw Hm H2 m HW eq_refl).
  - destruct (H1 (nnode n) eq_refl) as [Hw Hm]. destruct (nres_trie_visit n) as [Hv Hr].
    pose proof (nres_trie_wf n Hw) as HW'. destruct (nres_trie n) as [m' r]. cbn [fst snd] in *. subst r.
    split; [|split; [discriminate|split; [discriminate|exact H4]]].
    exact (map_merge_intro rdef rd _ _ _ _ _ _ m right (nnode n) _ HW HWr HJ Hw Hm H2 m' HW' Hv).
Qed.

Theorem map_mt_ok both lop rop (m : trie K V) (right : trie L W) : mwf m -> mwf right -> m_keeps (mcall lop) (map_visit m) ->
  match map_mt rdef rd st both lop rop m right with
  | Ret (m', r, o) =>
      map_merge rdef rd (m_generic lop /\ t_generic rop) (mt_bi both) (mt_li lop) (mt_ri rop) m right m' r /\ (o = Right -> m' = right) /\ o <> Self /\
      ~ exists h, lh_mt (cnt h (map_visit m)) (cnt h (map_visit right))
  | Diverge => exists h, lh_mt (cnt h (map_visit m)) (cnt h (map_visit right))
  | Panic => False
  end.
Proof.
  intros HW HWr HK. pose proof (mt_jkeeps both lop rop (map_visit m) (map_visit right) HK) as HJ.
  pose proof (m_mt_ok rdef rd st both lop rop 0 0 m right HW HWr HJ) as H. unfold map_mt.
  destruct (m_mt rdef rd st both lop rop m right 0) as [t| |]; cbn [bind]; [|contradiction|exact H].
  destruct H as [(H1 & H2 & H3) H4]. destruct t as [r|n].
  - destruct (H1 (Some right) eq_refl) as [Hw Hm]. split; [|split; [reflexivity|split; [discriminate|exact H4]]].
    exact (map_merge_intro rdef rd _ _ _ _ _ _ m right (Some right) r HW HWr HJ Hw Hm H2 right HWr eq_refl).
  - destruct (H1 (nnode n) eq_refl) as [Hw Hm]. destruct (nres_trie_visit n) as [Hv Hr].
    pose proof (nres_trie_wf n Hw) as HW'. destruct (nres_trie n) as [m' r]. cbn [fst snd] in *. subst r.
    split; [|split; [discriminate|split; [discriminate|exact H4]]].
    exact (map_merge_intro rdef rd _ _ _ _ _ _ m right (nnode n) _ HW HWr HJ Hw Hm H2 m' HW' Hv).
Qed.

Theorem map_mm_ok {S X} {KS : Key S} (both : transmute_op ((K * V) * (L * W)) S X R) lop rop (m : trie K V) (right : trie L W) :
  mwf m -> mwf right ->
  b_keeps (mcall both) (map_visit m) (map_visit right) -> m_keeps (mcall lop) (map_visit m) -> m_keeps (mcall rop) (map_visit right) ->
  match map_mm rdef rd both lop rop m right with
  | Ret (m', r) =>
      map_merge rdef rd (m_generic lop /\ m_generic rop) (mm_bi both) (mm_li lop) (mm_ri rop) m right m' r /\
      ~ exists h, lo_mm (cnt h (map_visit m)) (cnt h (map_visit right))
  | Diverge => exists h, hi_mm (cnt h (map_visit m)) (cnt h (map_visit right))
  | Panic => False
  end.
Proof.
  intros HW HWr HB HKl HKr. pose proof (mm_jkeeps both lop rop _ _ HB HKl HKr) as HJ.
  pose proof (m_mm_ok rdef rd both lop rop 0 0 m right HW HWr HJ) as H. unfold map_mm.
  destruct (m_mm rdef rd both lop rop m right 0) as [n| |]; cbn [bind]; [|contradiction|exact H].
  destruct H as [(H1 & H2 & H3) H4].
  destruct (H1 (nnode n) eq_refl) as [Hw Hm]. destruct (nres_trie_visit n) as [Hv Hr].
  pose proof (nres_trie_wf n Hw) as HW'. destruct (nres_trie n) as [m' r]. cbn [fst snd] in *. subst r.
  split; [|exact H4].
  exact (map_merge_intro rdef rd _ _ _ _ _ _ m right (nnode n) _ HW HWr HJ Hw Hm H2 m' HW' Hv).
Qed.

End JointApi.
