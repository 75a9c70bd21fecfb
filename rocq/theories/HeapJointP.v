(** The joint operations on the heap do what the tree operations do. *)
From Coq Require Import NArith Arith List Bool Lia ZifyBool ZifyN ZifyNat.
From Verif Require Import Base Words Flag Bia BiaP Node Api Trans Transform Joint JointT Heap SpecH HeapP HeapOpP HeapBulk HeapBulkP.
Import ListNotations.
Open Scope N_scope.

Lemma okn_x {K V} G (w : heap K V) x : okn G w (dn_node x) -> okx G w x.
Proof. destruct x; intros H; inversion H; subst; assumption. Qed.

Lemma two_flags_strip {E : Env} {K L V W} {KK : Key K} {KL : Key L} (x : dnext K V) (y : dnext L W) d :
  two_flags (dn_key x) (dn_key y) d = two_flags (next_key (strip_x x)) (next_key (strip_x y)) d.
Proof. rewrite !strip_dkey. reflexivity. Qed.

Section Traverse.
Context {E : Env} {K V L W S X R T T' : Type} {KL : Key L}.
Context (rdef : R) (rd : R -> R -> R).
Notation heap := (heap S X).
Context (h0 : heap) (G : addr -> Prop).
Context (okA : heap -> dnode K V -> Prop) (okB : heap -> dnode L W -> Prop) (rel : heap -> T -> T' -> Prop).
Context (okA_ext : forall w w' n, okA w n -> ext w w' -> okA w' n) (okB_ext : forall w w' n, okB w n -> ext w w' -> okB w' n).
Context (okA_kids : forall w a bits vs x c, okA w (DC a (BIA bits vs x)) -> In c vs -> okA w c)
        (okB_kids : forall w a bits vs x c, okB w (DC a (BIA bits vs x)) -> In c vs -> okB w c).

Context (add : hacc R -> N -> option (dnode K V) -> option (dnode L W) -> T -> heap -> outcome (hacc R)).
Context (add' : acc S X R -> N -> option (mnode K V) -> option (mnode L W) -> T' -> outcome (acc S X R)).
Definition oo {A} (P : A -> Prop) (o : option A) : Prop := match o with Some a => P a | None => True end.
Context (add_ok : forall w a a' i ol or t t', ext h0 w -> arel G w a a' -> oo (okA w) ol -> oo (okB w) or -> rel w t t' ->
  refines (arel G w) (add a i ol or t w) (add' a' i (option_map strip ol) (option_map strip or) t')).
Context (lone : dnode K V -> heap -> outcome (T * heap)) (rone : dnode L W -> heap -> outcome (T * heap))
  (done : hacc R -> heap -> outcome (T * heap)).
Context (lone' : mnode K V -> outcome T') (rone' : mnode L W -> outcome T') (done' : acc S X R -> outcome T').
Context (lone_ok : forall w n, ext h0 w -> okA w n -> wref rel w (lone n w) (lone' (strip n))).
Context (rone_ok : forall w n, ext h0 w -> okB w n -> wref rel w (rone n w) (rone' (strip n))).
Context (done_ok : forall w a a', ext h0 w -> arel G w a a' -> wref rel w (done a w) (done' a')).

Lemma add_wref w a a' i ol or t t' : ext h0 w -> arel G w a a' -> oo (okA w) ol -> oo (okB w) or -> rel w t t' ->
  wref (arel G) w (let* a := add a i ol or t w in Ret (a, w)) (add' a' i (option_map strip ol) (option_map strip or) t').
Proof.
  intros H1 H2 H3 H4 H5. pose proof (add_ok w a a' i ol or t t' H1 H2 H3 H4 H5) as H.
  inversion H; cbn [bind]; constructor. split; [apply ext_refl|assumption].
Qed.

Context (leaf : dnext K V -> dnext L W -> N -> heap -> outcome (T * heap)) (leaf' : lnext K V -> lnext L W -> N -> outcome T').
Context (leaf_ok : forall w l r d, ext h0 w -> okA w (dn_node l) -> okB w (dn_node r) ->
  wref rel w (leaf l r d w) (leaf' (strip_x l) (strip_x r) d)).

Lemma h_leaf_ok right n : forall depth w, ext h0 w -> okA w n -> okB w (dn_node right) ->
  wref rel w (h_leaf rdef add lone rone done leaf right n depth w) (m_leaf rdef add' lone' rone' done' leaf' (strip_x right) (strip n) depth).
Proof.
  induction n as [a bits vs x IH|l|s] using dnode_ind'; intros depth w He Ho Hr; cbn [h_leaf m_leaf strip].
  - rewrite strip_dkey. apply wref_same. intros fl. apply wref_same. intros flag.
    eapply wref_bind.
    + apply (hloop_ok G w); [|apply ext_refl|apply acc0_rel]. intros w1 b b' i He1 Hb. unfold hcl_step, cl_step.
      rewrite Forall_forall in IH. eapply wref_pure.
      * apply (bat_bit_rel (fun p q => fst q = strip (fst p) /\ okA w (fst p) /\
                 forall d w1, ext w w1 -> wref rel w1 (snd p d w1) (snd q d))).
        apply (brel_children strip). intros c Hc. cbn [fst snd]. split; [reflexivity|].
        assert (Hoc : okA w c) by (eapply okA_kids; eassumption). split; [exact Hoc|].
        intros d w2 He2. apply IH; [exact Hc|eapply ext_trans; eassumption|eapply okA_ext; eassumption|eapply okB_ext; eassumption].
      * intros o o' Hoo. apply wref_same. intros bit.
        assert (He01 : ext h0 w1) by (eapply ext_trans; eassumption).
        destruct Hoo as [[c run] [c' res] (Hs & Hok & Hrun)|e].
        -- cbn [fst snd] in *. subst c'. destruct (_ =? _).
           ++ eapply wref_bind; [apply (Hrun _ w1 He1)|]. intros t w2 t' He2 Ht. rewrite <- strip_node.
              apply (add_wref w2 b b' i (Some c) (Some (dn_node right))); cbn [oo];
                [eapply ext_trans; eassumption|eapply arel_ext; eassumption| | |exact Ht].
              ** eapply okA_ext; [exact Hok|eapply ext_trans; eassumption].
              ** eapply okB_ext; [exact Hr|eapply ext_trans; eassumption].
           ++ eapply wref_bind; [apply (lone_ok w1 c He01); eapply okA_ext; eassumption|]. intros t w2 t' He2 Ht. rewrite <- strip_node.
              apply (add_wref w2 b b' i (Some c) (Some (dn_node right))); cbn [oo];
                [eapply ext_trans; eassumption|eapply arel_ext; eassumption| | |exact Ht].
              ** eapply okA_ext; [exact Hok|eapply ext_trans; eassumption].
              ** eapply okB_ext; [exact Hr|eapply ext_trans; eassumption].
        -- destruct (_ =? _); [|apply wref_ret, Hb]. rewrite <- strip_node.
           eapply wref_bind; [apply (rone_ok w1 _ He01); eapply okB_ext; eassumption|]. intros t w2 t' He2 Ht.
           apply (add_wref w2 b b' i None (Some (dn_node right))); cbn [oo];
             [eapply ext_trans; eassumption|eapply arel_ext; eassumption|exact I| |exact Ht].
           eapply okB_ext; [exact Hr|eapply ext_trans; eassumption].
    + intros b w1 b' He1 Hb. apply done_ok; [eapply ext_trans; eassumption|exact Hb].
  - apply (leaf_ok w (DNL l) right); assumption.
  - apply (leaf_ok w (DNS s) right); assumption.
Qed.

Context (tree_leaf : dnext L W -> dnode K V -> N -> heap -> outcome (T * heap)) (tree_leaf' : lnext L W -> mnode K V -> N -> outcome T').
Context (leaf_tree : dnext K V -> dnode L W -> N -> heap -> outcome (T * heap)) (leaf_tree' : lnext K V -> mnode L W -> N -> outcome T').
Context (tree_leaf_ok : forall w r n d, ext h0 w -> okA w n -> okB w (dn_node r) ->
  wref rel w (tree_leaf r n d w) (tree_leaf' (strip_x r) (strip n) d)).
Context (leaf_tree_ok : forall w l n d, ext h0 w -> okA w (dn_node l) -> okB w n ->
  wref rel w (leaf_tree l n d w) (leaf_tree' (strip_x l) (strip n) d)).
Context (short : option T) (short' : option T') (st : strategy).
Context (short_ok : forall w, orel (rel w) short short').

Lemma brel_strip a bits (vs : list (dnode L W)) x w : okB w (DC a (BIA bits vs x)) ->
  brel (fun c c' => c' = strip c /\ okB w c) (BIA bits vs x) (BIA bits (map strip vs) x).
Proof.
  intros Ho. split; [reflexivity|]. split; [reflexivity|]. cbn [bvalues].
  assert (Hc : forall c, In c vs -> okB w c) by (intros c Hc; eapply okB_kids; eassumption).
  clear Ho. induction vs as [|c vs IH]; cbn [map]; constructor.
  - split; [reflexivity|apply Hc; left; reflexivity].
  - apply IH. intros c' Hc'. apply Hc. right. exact Hc'.
Qed.

Lemma h_joint_ok n : forall right depth w, ext h0 w -> okA w n -> okB w right ->
  wref rel w (h_joint rdef rd add lone rone done leaf tree_leaf leaf_tree short st n right depth w)
    (m_joint rdef rd add' lone' rone' done' leaf' tree_leaf' leaf_tree' short' st (strip n) (strip right) depth).
Proof.
  induction n as [a bits vs x IH|l|s] using dnode_ind'; intros right depth w He Ho Hr.
  - destruct right as [b [rbits rvs rx]|r|r].
    + cbn [h_joint m_joint strip]. pose proof (short_ok w) as Hsh. destruct Hsh as [t t' Ht|]; [apply wref_ret, Ht|].
      eapply wref_bind.
      * apply (hrun_loop_ok G). intros w1 acc1 acc1' i He1 Hacc. unfold hcc_step, cc_step.
        rewrite Forall_forall in IH.
        eapply wref_pure.
        -- apply (bat_bit_rel (fun p q => fst q = strip (fst p) /\ okA w (fst p) /\
                 forall r w1, ext w w1 -> okB w1 r -> wref rel w1 (snd p r w1) (snd q (strip r)))).
           apply (brel_children strip). intros c Hc. cbn [fst snd]. split; [reflexivity|].
           assert (Hoc : okA w c) by (eapply okA_kids; eassumption). split; [exact Hoc|].
           intros r w2 He2 Hr2. apply IH; [exact Hc|eapply ext_trans; eassumption|eapply okA_ext; eassumption|exact Hr2].
        -- assert (He01 : ext h0 w1) by (eapply ext_trans; eassumption).
           intros o o' Hoo. eapply wref_pure; [apply (bat_bit_rel _ _ _ i (brel_strip b rbits rvs rx w Hr))|]. intros p p' Hpp.
           destruct Hoo as [[c run] [c' res] (Hs & Hok & Hrun)|e], Hpp as [q q' (Hq & Hqo)|e'].
           ++ cbn [fst snd] in *. subst c' q'. assert (Hq1 : okB w1 q) by (eapply okB_ext; eassumption).
              eapply wref_bind; [apply (Hrun q w1 He1 Hq1)|]. intros t w2 t' He2 Ht.
              apply (add_wref w2 acc1 acc1' i (Some c) (Some q)); cbn [oo];
                [eapply ext_trans; eassumption|eapply arel_ext; eassumption| | |exact Ht].
              ** eapply okA_ext; [exact Hok|eapply ext_trans; eassumption].
              ** eapply okB_ext; eassumption.
           ++ cbn [fst snd] in *. subst c'. assert (Hc1 : okA w1 c) by (eapply okA_ext; eassumption).
              eapply wref_bind; [apply (lone_ok w1 c He01 Hc1)|]. intros t w2 t' He2 Ht.
              apply (add_wref w2 acc1 acc1' i (Some c) None); cbn [oo];
                [eapply ext_trans; eassumption|eapply arel_ext; eassumption| |exact I|exact Ht].
              eapply okA_ext; eassumption.
           ++ subst q'. assert (Hq1 : okB w1 q) by (eapply okB_ext; eassumption).
              eapply wref_bind; [apply (rone_ok w1 q He01 Hq1)|]. intros t w2 t' He2 Ht.
              apply (add_wref w2 acc1 acc1' i None (Some q)); cbn [oo];
                [eapply ext_trans; eassumption|eapply arel_ext; eassumption|exact I| |exact Ht].
              eapply okB_ext; eassumption.
           ++ apply wref_ret, Hacc.
      * intros b1 w1 b1' He1 Hb. apply done_ok; [eapply ext_trans; eassumption|exact Hb].
    + apply (tree_leaf_ok w (DNL r)); assumption.
    + apply (tree_leaf_ok w (DNS r)); assumption.
  - destruct right as [b [rbits rvs rx]|r|r].
    + apply (leaf_tree_ok w (DNL l)); assumption.
    + apply (leaf_ok w (DNL l) (DNL r)); assumption.
    + apply (leaf_ok w (DNL l) (DNS r)); assumption.
  - destruct right as [b [rbits rvs rx]|r|r].
    + apply (leaf_tree_ok w (DNS s)); assumption.
    + apply (leaf_ok w (DNS s) (DNL r)); assumption.
    + apply (leaf_ok w (DNS s) (DNS r)); assumption.
Qed.

End Traverse.
