(** The public operations on maps that may hold a key twice. *)
From Coq Require Import NArith Arith List Bool Lia ZifyBool ZifyN ZifyNat Permutation.
From Verif Require Import Base Words WordsP Flag FlagP Bia BiaP Node Spec SpecP Inv NodeP InsertP TrieP Api ApiP
  Trans Transform Weak LoopP SpecT TransformP TransApiP Joint SpecJ JointLeafP JointNodeP JointT StratP HangP KeepP
  WeakP WeakOpP WeakTransP WeakJointP WeakLeafP.
Import ListNotations.
Open Scope N_scope.

Lemma holds_imp {T} (P Q : T -> Prop) o : (forall t, P t -> Q t) -> holds P o -> holds Q o.
Proof. intros H Ho t Ht. auto. Qed.

(** * transform_with_transformed *)
Section TT.
Context {E : Env} {K V R : Type} {KK : Key K}.
Context (rdef : R) (rd : R -> R -> R) (st : strategy).

Lemma tt_fits_jww (Q : K * V -> Prop) d p n right t : fits Q tt_ac d p (Some n) (Some right) t -> jww (R := R) Q d p t.
Proof. destruct t as [r|r|r|t]; cbn [jww]; auto. intros H x Hx. exact (H _ x eq_refl Hx). Qed.

Lemma jww_flip (Q : K * V -> Prop) d p (t : jres K V R) : jww Q d p t -> jww Q d p (jres_flip t).
Proof. destruct t; exact (fun H => H). Qed.

Section Sides.
Context (P P' Q : K * V -> Prop).
Context (Hl : forall e v, P e -> Q (fst e, v)) (Hr : forall e v, P' e -> Q (fst e, v)).

Lemma jww_fits d p n right t : ww P d p n -> ww P' d p right -> jww (R := R) Q d p t -> fits Q tt_ac d p (Some n) (Some right) t.
Proof.
  intros HW HW' H c x. destruct t as [r|r|r|t]; cbn [tt_ac unwrap bind]; intros [= <-]; cbn [fst]; intros Hx.
  1-2: injection Hx as <-; apply (ww_mono P); [intros e _; apply (inl P Q Hl)|assumption].
  - injection Hx as <-. apply (ww_mono P'); [intros e _; apply (inl P' Q Hr)|assumption].
  - apply H. assumption.
Qed.

Lemma tt_lone_fits lop d p n or : ww P d p n -> holds (fits Q tt_ac d p (Some n) or) (tt_lone rdef rd st lop n).
Proof.
  intros HW. unfold tt_lone. destruct (m_transform_w rdef rd st lop P Q d p n Hl HW) as (t & -> & Hw). cbn [bind].
  apply holds_ret. intros c x. destruct t as [r|t]; cbn [t_left tt_ac unwrap bind]; intros [= <-]; apply Hw.
Qed.
Lemma tt_rone_fits rop d p n : ww P' d p n -> holds (fits Q tt_ac d p None (Some n)) (tt_rone rdef rd st rop n).
Proof.
  intros HW. unfold tt_rone. destruct (m_transform_w rdef rd st rop P' Q d p n Hr HW) as (t & -> & Hw). cbn [bind].
  apply holds_ret. intros c x. destruct t as [r|t]; cbn [t_right tt_ac unwrap bind]; intros [= <-]; apply Hw.
Qed.

Lemma tt_done_fits d p n right (g : N -> cont K V R) r : off d < hbits -> p < 2 ^ off d -> ww P d p n -> ww P' d p right ->
  (forall i x, i < max_ones fw -> cn (g i) = Some x -> ww Q (d + 1) (p + i * 2 ^ off d) x) ->
  holds (fits Q tt_ac d p (Some n) (Some right)) (tt_done (total g r)).
Proof.
  intros Ho Hp HW HW' Hg t Ht. apply jww_fits; try assumption. unfold tt_done in Ht.
  destruct (a_ul _); destruct (a_ur _); try (injection Ht as <-; exact I).
  destruct (finish (total g r)) as [nn| |] eqn:Hf; try discriminate. injection Ht as <-.
  intros x. eapply finish_w; eassumption.
Qed.

End Sides.

Lemma tt_leaf_fits (P P' Q : K * V -> Prop) (Hl : forall e v, P e -> Q (fst e, v)) (Hr : forall e v, P' e -> Q (fst e, v))
  both lop rop d p this right : ww P d p (next_mnode this) -> ww P' d p (next_mnode right) ->
  holds (fits Q tt_ac d p (Some (next_mnode this)) (Some (next_mnode right))) (tt_leaf rd both lop rop this right d).
Proof.
  intros HW HW'. eapply holds_imp; [intros t; apply (jww_fits P P' Q Hl Hr d p _ _ t HW HW')|].
  destruct this as [l|s]; destruct right as [r|r]; cbn [tt_leaf next_mnode] in *.
  - apply (tt_lnode_w rd P P' Q Hl Hr); assumption.
  - apply (tt_lsnode_w rd P P' Q Hl Hr); assumption.
  - eapply holds_bind; [apply (tt_lsnode_w rd P' P Q Hr Hl); eassumption|]. intros t Ht. apply holds_ret. apply jww_flip. exact Ht.
  - apply (tt_snode_w rd P P' Q Hl Hr); assumption.
Qed.

Lemma tt_tree_leaf_fits (P P' Q : K * V -> Prop) (Hl : forall e v, P e -> Q (fst e, v)) (Hr : forall e v, P' e -> Q (fst e, v))
  both lop rop d p n right : ww P d p n -> ww P' d p (next_mnode right) ->
  holds (fits Q tt_ac d p (Some n) (Some (next_mnode right))) (tt_tree_leaf rdef rd st both lop rop right n d).
Proof.
  intros HW HW'. unfold tt_tree_leaf.
  apply (m_leaf_fits rdef rd P P' Q tt_ac jred (tt_add rd) (tt_add_ac rd) tt_done
    (tt_done_fits P P' Q Hl Hr) _ _ (tt_lone_fits P Q Hl lop) (tt_rone_fits P' Q Hr rop) _ (tt_leaf_fits P P' Q Hl Hr both lop rop)); assumption.
Qed.

Lemma m_tt_w (P P' Q : K * V -> Prop) (Hl : forall e v, P e -> Q (fst e, v)) (Hr : forall e v, P' e -> Q (fst e, v))
  both lop rop d p n right : ww P d p n -> ww P' d p right -> holds (jww Q d p) (m_tt rdef rd st both lop rop n right d).
Proof.
  intros HW HW'. eapply holds_imp; [intros t; apply (tt_fits_jww Q d p n right)|]. unfold m_tt.
  refine (m_joint_fits rdef rd P P' Q tt_ac jred (tt_add rd) (tt_add_ac rd) tt_done
    (tt_done_fits P P' Q Hl Hr) _ _ (tt_lone_fits P Q Hl lop) (tt_rone_fits P' Q Hr rop) _ (tt_leaf_fits P P' Q Hl Hr both lop rop)
    _ _ _ _ (tt_tree_leaf_fits P P' Q Hl Hr both lop rop) _ _ n d p right HW HW').
  - intros d' p' n' right' H1 H2. eapply holds_imp; [intros t; apply (jww_fits P P' Q Hl Hr d' p' _ _ t H1 H2)|]. unfold tt_leaf_tree.
    eapply (holds_bind (jww Q d' p')).
    + exact (holds_imp _ _ _ (fun t => tt_fits_jww Q d' p' _ _ t) (tt_tree_leaf_fits P' P Q Hr Hl _ _ _ _ _ _ _ H2 H1)).
    + intros t Ht. apply holds_ret. apply jww_flip. assumption.
  - intros d' p' n' right' t H1 H2 Ht. apply (jww_fits P P' Q Hl Hr); try assumption.
    unfold tt_short in Ht. destruct both; destruct lop; destruct rop; try discriminate; injection Ht as <-; try exact I; discriminate.
Qed.

End TT.

(** * transform_with_transmuted and transmute_with_transformed *)
Section TM.
Context {E : Env} {R : Type}.
Context (rdef : R) (rd : R -> R -> R) (st : strategy).

Section Sides.
Context {K V L W : Type} {KK : Key K} {KL : Key L}.

Lemma tm_fits_tww keep (Q : K * V -> Prop) d p n (right : mnode L W) t : fits Q (tm_ac keep) d p (Some n) (Some right) t -> tww (R := R) Q d p t.
Proof. destruct t as [r|t]; cbn [tww]; auto. intros H x Hx. exact (H _ x eq_refl Hx). Qed.
Lemma mt_fits_tww keep (Q : L * W -> Prop) d p (n : mnode K V) (right : mnode L W) t : fits Q (mt_ac keep) d p (Some n) (Some right) t -> tww (R := R) Q d p t.
Proof. destruct t as [r|t]; cbn [tww]; auto. intros H x Hx. exact (H _ x eq_refl Hx). Qed.

Lemma tww_tm_fits keep (P Q : K * V -> Prop) (Hl : forall e v, P e -> Q (fst e, v)) d p n (or : option (mnode L W)) t :
  ww P d p n -> tww (R := R) Q d p t -> fits Q (tm_ac keep) d p (Some n) or t.
Proof.
  intros HW H c x. destruct t as [r|t]; cbn [tm_ac unwrap bind]; intros [= <-]; cbn [fst]; intros Hx; [|apply H; assumption].
  injection Hx as <-. apply (ww_mono P); [intros e _; apply (inl P Q Hl)|assumption].
Qed.
Lemma tww_mt_fits keep (P' Q : L * W -> Prop) (Hr : forall e v, P' e -> Q (fst e, v)) d p (ol : option (mnode K V)) right t :
  ww P' d p right -> tww (R := R) Q d p t -> fits Q (mt_ac keep) d p ol (Some right) t.
Proof.
  intros HW H c x. destruct t as [r|t]; cbn [mt_ac unwrap bind]; intros [= <-]; cbn [fst]; intros Hx; [|apply H; assumption].
  injection Hx as <-. apply (ww_mono P'); [intros e _; apply (inl P' Q Hr)|assumption].
Qed.

Section One.
Context (P : K * V -> Prop) (P' : L * W -> Prop) (Q : K * V -> Prop).
Context (both : transform_op ((K * V) * (L * W)) V R) (lop : transform_op (K * V) V R) (rop : transmute_op (L * W) K V R).
Context (Hl : forall e v, P e -> Q (fst e, v)) (Hr : m_into P' Q rop).

Lemma tm_lone_fits keep d p n (or : option (mnode L W)) : ww P d p n -> holds (fits Q (tm_ac keep) d p (Some n) or) (tm_lone rdef rd st lop n).
Proof.
  intros HW. unfold tm_lone. destruct (m_transform_w rdef rd st lop P Q d p n Hl HW) as (t & -> & Hw).
  apply holds_ret. apply (tww_tm_fits keep P Q Hl); [assumption|]. destruct t as [r|t]; [exact I|exact Hw].
Qed.
Lemma tm_rone_fits keep d p n : ww P' d p n -> holds (fits Q (tm_ac (L := L) (W := W) keep) d p None (Some n)) (tm_rone rdef rd rop n).
Proof.
  intros HW. unfold tm_rone. destruct (m_transmute_w rdef rd rop P' Q d p n Hr HW) as (t & -> & Hw). cbn [bind].
  apply holds_ret. intros c x [= <-]. apply Hw.
Qed.
Lemma tm_done_fits keep d p n right (g : N -> cont K V R) r : off d < hbits -> p < 2 ^ off d -> ww P d p n -> ww P' d p right ->
  (forall i x, i < max_ones fw -> cn (g i) = Some x -> ww Q (d + 1) (p + i * 2 ^ off d) x) ->
  holds (fits Q (tm_ac keep) d p (Some n) (Some right)) (tm_done (total g r)).
Proof.
  intros Ho Hp HW HW' Hg t Ht. apply (tww_tm_fits keep P Q Hl); [assumption|]. unfold tm_done in Ht.
  destruct (a_ul _); try (injection Ht as <-; exact I).
  destruct (finish (total g r)) as [nn| |] eqn:Hf; try discriminate. injection Ht as <-.
  intros x. eapply finish_w; eassumption.
Qed.
End One.

Section Two.
Context (P : K * V -> Prop) (P' : L * W -> Prop) (Q : L * W -> Prop).
Context (both : transform_op ((K * V) * (L * W)) W R) (lop : transmute_op (K * V) L W R) (rop : transform_op (L * W) W R).
Context (Hl : m_into P Q lop) (Hr : forall e v, P' e -> Q (fst e, v)).

Lemma mt_lone_fits keep d p n (or : option (mnode L W)) : ww P d p n -> holds (fits Q (mt_ac keep) d p (Some n) or) (mt_lone rdef rd lop n).
Proof.
  intros HW. unfold mt_lone. destruct (m_transmute_w rdef rd lop P Q d p n Hl HW) as (t & -> & Hw). cbn [bind].
  apply holds_ret. intros c x [= <-]. apply Hw.
Qed.
Lemma mt_rone_fits keep d p n : ww P' d p n -> holds (fits Q (mt_ac (K := K) (V := V) keep) d p None (Some n)) (mt_rone rdef rd st rop n).
Proof.
  intros HW. unfold mt_rone. destruct (m_transform_w rdef rd st rop P' Q d p n Hr HW) as (t & -> & Hw).
  apply holds_ret. apply (tww_mt_fits keep P' Q Hr); [assumption|]. destruct t as [r|t]; [exact I|exact Hw].
Qed.
Lemma mt_done_fits keep d p (n : mnode K V) right (g : N -> cont L W R) r : off d < hbits -> p < 2 ^ off d -> ww P d p n -> ww P' d p right ->
  (forall i x, i < max_ones fw -> cn (g i) = Some x -> ww Q (d + 1) (p + i * 2 ^ off d) x) ->
  holds (fits Q (mt_ac keep) d p (Some n) (Some right)) (mt_done (total g r)).
Proof.
  intros Ho Hp HW HW' Hg t Ht. apply (tww_mt_fits keep P' Q Hr); [assumption|]. unfold mt_done in Ht.
  destruct (a_ur _); try (injection Ht as <-; exact I).
  destruct (finish (total g r)) as [nn| |] eqn:Hf; try discriminate. injection Ht as <-.
  intros x. eapply finish_w; eassumption.
Qed.
End Two.
End Sides.

Section Leaves.
Context {K V L W : Type} {KK : Key K} {KL : Key L}.

Lemma tm_leaf_w (P : K * V -> Prop) (P' : L * W -> Prop) (Q : K * V -> Prop) both lop rop
  (Hl : forall e v, P e -> Q (fst e, v)) (Hr : m_into P' Q rop) d p this right : ww P d p (next_mnode this) -> ww P' d p (next_mnode right) ->
  holds (tww (R := R) Q d p) (tm_leaf rd both lop rop this right d).
Proof.
  intros HW HW'. destruct this as [l|s]; destruct right as [r|r]; cbn [tm_leaf next_mnode] in *.
  - apply (tm_lnode_w rd P P' Q); assumption.
  - apply (tm_lsnode_w rd P P' Q); assumption.
  - apply (mt_lsnode_w rd P' P Q); assumption.
  - apply (tm_snode_w rd P P' Q); assumption.
Qed.

Lemma mt_leaf_w (P : K * V -> Prop) (P' : L * W -> Prop) (Q : L * W -> Prop) both lop rop
  (Hl : m_into P Q lop) (Hr : forall e v, P' e -> Q (fst e, v)) d p this right : ww P d p (next_mnode this) -> ww P' d p (next_mnode right) ->
  holds (tww (R := R) Q d p) (mt_leaf rd both lop rop this right d).
Proof.
  intros HW HW'. destruct this as [l|s]; destruct right as [r|r]; cbn [mt_leaf next_mnode] in *.
  - apply (tm_lnode_w rd P' P Q); assumption.
  - apply (mt_lsnode_w rd P P' Q); assumption.
  - apply (tm_lsnode_w rd P' P Q); assumption.
  - apply (mt_snode_w rd P P' Q); assumption.
Qed.

Lemma tm_tree_leaf_w (P : K * V -> Prop) (P' : L * W -> Prop) (Q : K * V -> Prop) both lop rop
  (Hl : forall e v, P e -> Q (fst e, v)) (Hr : m_into P' Q rop) d p n right : ww P d p n -> ww P' d p (next_mnode right) ->
  holds (tww (R := R) Q d p) (tm_tree_leaf rdef rd st both lop rop right n d).
Proof.
  intros HW HW'. eapply holds_imp; [intros t; apply (tm_fits_tww (match right with NL _ => false | NS _ => true end) Q d p n (next_mnode right))|]. unfold tm_tree_leaf.
  refine (m_leaf_fits rdef rd P P' Q (tm_ac _) tred _ (tm_add_ac rd _) tm_done
    (tm_done_fits P P' Q Hl _) _ _ (tm_lone_fits P Q lop Hl _) (tm_rone_fits P' Q rop Hr _) _ _ n d p right HW HW').
  intros d' p' this' right' H1 H2. eapply holds_imp; [intros t Ht; apply (tww_tm_fits _ P Q Hl); eassumption|]. apply (tm_leaf_w P P' Q); assumption.
Qed.

Lemma mt_tree_leaf_w (P : K * V -> Prop) (P' : L * W -> Prop) (Q : L * W -> Prop) both lop rop
  (Hl : m_into P Q lop) (Hr : forall e v, P' e -> Q (fst e, v)) d p n right : ww P d p n -> ww P' d p (next_mnode right) ->
  holds (tww (R := R) Q d p) (mt_tree_leaf rdef rd st both lop rop right n d).
Proof.
  intros HW HW'. eapply holds_imp; [intros t; apply (mt_fits_tww (match right with NL _ => false | NS _ => true end) Q d p n (next_mnode right))|]. unfold mt_tree_leaf.
  refine (m_leaf_fits rdef rd P P' Q (mt_ac _) tred _ (mt_add_ac rd _) mt_done
    (mt_done_fits P P' Q Hr _) _ _ (mt_lone_fits P Q lop Hl _) (mt_rone_fits P' Q rop Hr _) _ _ n d p right HW HW').
  intros d' p' this' right' H1 H2. eapply holds_imp; [intros t Ht; apply (tww_mt_fits _ P' Q Hr); eassumption|]. apply (mt_leaf_w P P' Q); assumption.
Qed.

End Leaves.

Context {K V L W : Type} {KK : Key K} {KL : Key L}.

Lemma m_tm_w (P : K * V -> Prop) (P' : L * W -> Prop) (Q : K * V -> Prop) both lop rop
  (Hl : forall e v, P e -> Q (fst e, v)) (Hr : m_into P' Q rop) d p n right : ww P d p n -> ww P' d p right ->
  holds (tww (R := R) Q d p) (m_tm rdef rd st both lop rop n right d).
Proof.
  intros HW HW'. eapply holds_imp; [intros t; apply (tm_fits_tww true Q d p n right)|]. unfold m_tm.
  refine (m_joint_fits rdef rd P P' Q (tm_ac true) tred _ (tm_add_ac rd true) tm_done
    (tm_done_fits P P' Q Hl _) _ _ (tm_lone_fits P Q lop Hl _) (tm_rone_fits P' Q rop Hr _) _ _ _ _ _ _ _ _ _ n d p right HW HW').
  - intros d' p' this' right' H1 H2. eapply holds_imp; [intros t Ht; apply (tww_tm_fits _ P Q Hl); eassumption|]. apply (tm_leaf_w P P' Q); assumption.
  - intros d' p' this' right' H1 H2. eapply holds_imp; [intros t Ht; apply (tww_tm_fits _ P Q Hl); eassumption|]. apply (tm_tree_leaf_w P P' Q); assumption.
  - intros d' p' this' right' H1 H2. eapply holds_imp; [intros t Ht; apply (tww_tm_fits _ P Q Hl); eassumption|]. apply (mt_tree_leaf_w P' P Q); assumption.
  - discriminate.
Qed.

Lemma m_mt_w (P : K * V -> Prop) (P' : L * W -> Prop) (Q : L * W -> Prop) both lop rop
  (Hl : m_into P Q lop) (Hr : forall e v, P' e -> Q (fst e, v)) d p n right : ww P d p n -> ww P' d p right ->
  holds (tww (R := R) Q d p) (m_mt rdef rd st both lop rop n right d).
Proof.
  intros HW HW'. eapply holds_imp; [intros t; apply (mt_fits_tww true Q d p n right)|]. unfold m_mt.
  refine (m_joint_fits rdef rd P P' Q (mt_ac true) tred _ (mt_add_ac rd true) mt_done
    (mt_done_fits P P' Q Hr _) _ _ (mt_lone_fits P Q lop Hl _) (mt_rone_fits P' Q rop Hr _) _ _ _ _ _ _ _ _ _ n d p right HW HW').
  - intros d' p' this' right' H1 H2. eapply holds_imp; [intros t Ht; apply (tww_mt_fits _ P' Q Hr); eassumption|]. apply (mt_leaf_w P P' Q); assumption.
  - intros d' p' this' right' H1 H2. eapply holds_imp; [intros t Ht; apply (tww_mt_fits _ P' Q Hr); eassumption|]. apply (mt_tree_leaf_w P P' Q); assumption.
  - intros d' p' this' right' H1 H2. eapply holds_imp; [intros t Ht; apply (tww_mt_fits _ P' Q Hr); eassumption|]. apply (tm_tree_leaf_w P' P Q); assumption.
  - discriminate.
Qed.

End TM.

(** * transmute_with_transmuted *)
Section MM.
Context {E : Env} {S X R : Type} {KS : Key S}.
Context (rdef : R) (rd : R -> R -> R) (Q : S * X -> Prop).

Lemma mm_flip_into {K V L W} {KK : Key K} {KL : Key L} (P : K * V -> Prop) (P' : L * W -> Prop)
  (both : transmute_op ((K * V) * (L * W)) S X R) : mm_into P P' Q both -> mm_into P' P Q (mflip both).
Proof.
  intros H e e' k v r He He' Hc Hm. destruct both as [f|r0]; cbn in Hm; [|discriminate].
  destruct (H e' e k v r He' He (eq_sym Hc) Hm) as [H1 H2]. split; [assumption|]. unfold ecls in *. congruence.
Qed.

Lemma mm_leaf_w {K V L W} {KK : Key K} {KL : Key L} (P : K * V -> Prop) (P' : L * W -> Prop)
  (both : transmute_op ((K * V) * (L * W)) S X R) lop rop (Hb : mm_into P P' Q both) (Hl : m_into P Q lop) (Hr : m_into P' Q rop) d p this right :
  ww P d p (next_mnode this) -> ww P' d p (next_mnode right) -> holds (nww Q d p) (mm_leaf rd both lop rop this right d).
Proof.
  intros HW HW'. destruct this as [l|s]; destruct right as [r|r]; cbn [mm_leaf next_mnode] in *.
  - apply (mm_lnode_w rd P P' Q); assumption.
  - apply (mm_lsnode_w rd P P' Q); assumption.
  - apply (mm_lsnode_w rd P' P Q); try assumption. apply mm_flip_into. assumption.
  - apply (mm_snode_w rd P P' Q); assumption.
Qed.

Lemma nww_fits {K V L W} d p (ol : option (mnode K V)) (or : option (mnode L W)) t : nww (R := R) Q d p t <-> fits Q mm_ac d p ol or t.
Proof. split; [intros H c x [= <-]; apply H|]. intros H x. exact (H _ x eq_refl). Qed.

Lemma mm_one_fits {K V} {KK : Key K} (P : K * V -> Prop) (op : transmute_op (K * V) S X R) (Ho : m_into P Q op) d p n : ww P d p n ->
  holds (nww Q d p) (m_transmute rdef rd op n).
Proof.
  intros HW. destruct (m_transmute_w rdef rd op P Q d p n Ho HW) as (t & -> & Hw). apply holds_ret. exact Hw.
Qed.

Lemma mm_done_fits d p (g : N -> cont S X R) r : off d < hbits -> p < 2 ^ off d ->
  (forall i x, i < max_ones fw -> cn (g i) = Some x -> ww Q (d + 1) (p + i * 2 ^ off d) x) ->
  holds (nww Q d p) (finish (total g r)).
Proof. intros Ho Hp Hg t Ht x. eapply finish_w; eassumption. Qed.

Lemma mm_tree_leaf_w {K V L W} {KK : Key K} {KL : Key L} (P : K * V -> Prop) (P' : L * W -> Prop)
  (both : transmute_op ((K * V) * (L * W)) S X R) lop rop (Hb : mm_into P P' Q both) (Hl : m_into P Q lop) (Hr : m_into P' Q rop) d p n right :
  ww P d p n -> ww P' d p (next_mnode right) -> holds (nww Q d p) (mm_tree_leaf rdef rd both lop rop right n d).
Proof.
  intros HW HW'. eapply holds_imp; [intros t; apply (nww_fits d p (Some n) (Some (next_mnode right)))|]. unfold mm_tree_leaf.
  refine (m_leaf_fits rdef rd P P' Q mm_ac nred _ (mm_add_ac rd) finish _ _ _ _ _ _ _ n d p right HW HW').
  - intros d' p' n' right' g r Ho Hp _ _ Hg t Ht. apply nww_fits. eapply mm_done_fits; eassumption.
  - intros d' p' n' or H. eapply holds_imp; [intros t Ht; apply nww_fits; eassumption|]. apply (mm_one_fits P); assumption.
  - intros d' p' n' H. eapply holds_imp; [intros t Ht; apply nww_fits; eassumption|]. apply (mm_one_fits P'); assumption.
  - intros d' p' this' right' H1 H2. eapply holds_imp; [intros t Ht; apply nww_fits; eassumption|]. apply (mm_leaf_w P P'); assumption.
Qed.

Lemma m_mm_w {K V L W} {KK : Key K} {KL : Key L} (P : K * V -> Prop) (P' : L * W -> Prop)
  (both : transmute_op ((K * V) * (L * W)) S X R) lop rop (Hb : mm_into P P' Q both) (Hl : m_into P Q lop) (Hr : m_into P' Q rop) d p n right :
  ww P d p n -> ww P' d p right -> holds (nww Q d p) (m_mm rdef rd both lop rop n right d).
Proof.
  intros HW HW'. eapply holds_imp; [intros t; apply (nww_fits d p (Some n) (Some right))|]. unfold m_mm.
  refine (m_joint_fits rdef rd P P' Q mm_ac nred _ (mm_add_ac rd) finish _ _ _ _ _ _ _ _ _ _ _ _ _ _ n d p right HW HW').
  - intros d' p' n' right' g r Ho Hp _ _ Hg t Ht. apply nww_fits. eapply mm_done_fits; eassumption.
  - intros d' p' n' or H. eapply holds_imp; [intros t Ht; apply nww_fits; eassumption|]. apply (mm_one_fits P); assumption.
  - intros d' p' n' H. eapply holds_imp; [intros t Ht; apply nww_fits; eassumption|]. apply (mm_one_fits P'); assumption.
  - intros d' p' this' right' H1 H2. eapply holds_imp; [intros t Ht; apply nww_fits; eassumption|]. apply (mm_leaf_w P P'); assumption.
  - intros d' p' this' right' H1 H2. eapply holds_imp; [intros t Ht; apply nww_fits; eassumption|]. apply (mm_tree_leaf_w P P'); assumption.
  - intros d' p' this' right' H1 H2. eapply holds_imp; [intros t Ht; apply nww_fits; eassumption|]. apply (mm_tree_leaf_w P' P); try assumption.
    apply mm_flip_into. assumption.
  - discriminate.
Qed.

End MM.
