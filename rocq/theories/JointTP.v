(** Whole nodes: transform_with_transformed meets its specification. *)
From Coq Require Import NArith Arith List Bool Lia ZifyBool ZifyN ZifyNat Permutation.
From Verif Require Import Base Words WordsP Flag FlagP Bia BiaP Node Spec SpecP Inv NodeP InsertP TrieP Api ApiP
  Trans Transform LoopP SpecT TransformP TransApiP Joint SpecJ JoinP JointP JointMP JointLeafP JointNodeP JointT JointTLeafP.
Import ListNotations.
Open Scope N_scope.

(** * The specification *)
Section SpecTT.
Context {E : Env} {K V R : Type} {KK : Key K}.

(** [q] says whether the early returns are ruled out. *)
Definition lo_tt (q : Prop) (a b : nat) : Prop := q /\ (3 <= a /\ 3 <= b)%nat.
Lemma lo_tt_pos q a b : lo_tt q a b -> a <> O /\ b <> O.
Proof. unfold lo_tt. lia. Qed.

Definition sp_tt (q : Prop) (both : joint_op (K * V) V R) (lop rop : transform_op (K * V) V R) : @jspec K V K V K V R :=
  {| sB := b_about both; sL := fun e => t_to (tcall lop e) e; sR := fun e' => t_to (tcall rop e') e';
     rB := fun e e' => b_red (jcall both e e'); rL := fun e => t_red (tcall lop e); rR := fun e' => t_red (tcall rop e');
     gen := tt_gen lop rop; dom := tame both lop rop; lo := lo_tt q; hi := hi_mm |}.

Lemma plural_part h (ln lr ln' lr' : list (K * V)) : hpart ln lr ln' lr' -> plural h ln' ->
  forall c, hash c = h -> lookup c ln' = lookup c ln /\ lookup c lr' = lookup c lr.
Proof.
  intros HP (c1 & c2 & _ & H1 & _ & H3 & _) c Hc. apply (HP c1 (or_introl H3)). congruence.
Qed.
Lemma plural_ext h (l l' : list (K * V)) : (forall c, hash c = h -> lookup c l' = lookup c l) -> plural h l' -> plural h l.
Proof.
  intros H (c1 & c2 & H0 & H1 & H2 & H3 & H4). exists c1, c2. rewrite <- !H by assumption. auto.
Qed.
Lemma hpart_flip (ln lr ln' lr' : list (K * V)) : hpart ln lr ln' lr' -> hpart lr ln lr' ln'.
Proof. intros H c Hc c' Hh. destruct (H c ltac:(tauto) c' Hh). auto. Qed.

Lemma tame_left_part (op : joint_op (K * V) V R) lop rop ln lr ln' lr' : hpart ln lr ln' lr' ->
  tame_left op lop rop ln lr -> tame_left op lop rop ln' lr'.
Proof.
  intros HP HT h Hpl. pose proof (plural_part h _ _ _ _ HP Hpl) as HX.
  assert (Hpl' : plural h ln) by (eapply plural_ext; [|exact Hpl]; intros; apply HX; assumption).
  assert (Hr : plural h lr' <-> plural h lr).
  { split; apply plural_ext; intros c Hc; [|symmetry]; apply HX; assumption. }
  assert (HC : forall e e', common h ln' lr' e e' -> common h ln lr e e').
  { intros e e' (H1 & H2 & H3). destruct (HX _ H1) as [Ha Hb]. rewrite Ha in H2. rewrite Hb in H3. split; auto. }
  assert (HO : forall e, only h ln' lr' e -> only h ln lr e).
  { intros e (H1 & H2 & H3). destruct (HX _ H1) as [Ha Hb]. rewrite Ha in H2. rewrite Hb in H3. split; auto. }
  assert (HO' : forall e, only h lr' ln' e -> only h lr ln e).
  { intros e (H1 & H2 & H3). destruct (HX _ H1) as [Ha Hb]. rewrite Hb in H2. rewrite Ha in H3. split; auto. }
  destruct (HT h Hpl') as [T1 T2]. split.
  - intros H e e' Hc. apply T1; [apply Hr; assumption|auto].
  - intros H. destruct T2 as [T2 T3]; [intros H'; apply H, Hr; assumption|]. split.
    + intros e e' e1 H1 H2 H3. apply (T2 e e' e1); auto.
    + intros e' e1 e2 H1 H2 H3 H4 H5. apply (T3 e' e1 e2); auto.
Qed.

Lemma sp_tt_ok q both lop rop : spec_ok (sp_tt q both lop rop).
Proof.
  constructor; cbn [sp_tt dom lo hi].
  - intros ln lr ln' lr' HP [H1 H2]. split; (eapply tame_left_part; [|eassumption]); [assumption|apply hpart_flip; assumption].
  - exact (lo_tt_pos q).
  - exact hi_mm_pos.
Qed.

Lemma jflip_flip (op : joint_op (K * V) V R) : jflip (jflip op) = op.
Proof. destruct op as [f []| | | |]; reflexivity. Qed.

Lemma tame_flip (both : joint_op (K * V) V R) lop rop ln lr : tame both lop rop ln lr -> tame (jflip both) rop lop lr ln.
Proof. intros [H1 H2]. split; [assumption|]. rewrite jflip_flip. assumption. Qed.

Lemma jcall_flip (f : K * V -> K * V -> bres V R) b e e' :
  jcall (jflip (JGeneric f b)) e' e = bres_flip (jcall (JGeneric f b) e e').
Proof. destruct b; cbn; [destruct (f e' e)|destruct (f e e')]; reflexivity. Qed.

Lemma b_about_flip (op : joint_op (K * V) V R) e e' x : b_about (jflip op) e' e x -> b_about op e e' x.
Proof.
  destruct op as [f b| | | |]; unfold b_about; [|cbn; tauto..].
  rewrite jcall_flip. cbn [jflip one_sided]. intros [H|[[] _]]. left. destruct (jcall (JGeneric f b) e e'); cbn in *; tauto.
Qed.
Lemma b_red_flip (op : joint_op (K * V) V R) e e' : b_red (jcall (jflip op) e' e) = b_red (jcall op e e').
Proof. destruct op as [f b| | | |]; [|reflexivity..]. rewrite jcall_flip. destruct (jcall (JGeneric f b) e e'); reflexivity. Qed.

Lemma b_left_about (op : joint_op (K * V) V R) e e' : b_about op e e' (b_left (jcall op e e') e e').
Proof. left. destruct (jcall op e e'); cbn; auto. Qed.

(** * Readings *)
Definition rr_tt : @jread K V K V K V R (jres K V R) :=
  {| reads := fun t ol or o => match t with
       | JLR _ => o = ol \/ o = or | JL _ => o = ol | JR _ => o = or | JN n => o = nnode n end;
     fits := fun t ol or => match t with
       | JLR _ => ol <> None /\ or <> None | JL _ => ol <> None | JR _ => or <> None | JN _ => True end;
     jr := jred;
     pick := fun t ol or => match t with JLR _ | JL _ => ol | JR _ => or | JN n => nnode n end;
     fl := fun t => match t with JLR _ | JL _ => true | _ => false end;
     fr := fun t => match t with JLR _ | JR _ => true | _ => false end |}.

Lemma rr_tt_ok : read_ok rr_tt is_left is_left.
Proof.
  assert (HS : forall d p (n : mnode K V) o, is_left (Some n) o -> wf d p n ->
    owf d p o /\ forall os, spread d p (m_visit n) os ->
      exists os', spread d p (ovisit o) os' /\ forall i, is_left (os i) (os' i)).
  { intros d p n o -> HW. split; [intros m [= <-]; assumption|]. intros os Hs. exists os. split; [exact Hs|reflexivity]. }
  constructor; cbn; unfold is_left; try exact HS.
  - intros [| | |] ol or H; auto.
  - intros [| | |] ol or o H H1 ->; auto; discriminate.
  - intros [| | |] ol or o H H1 ->; auto; discriminate.
  - auto.
  - auto.
Qed.

Lemma tt_add_ok rd : add_ok rd rr_tt (tt_add rd).
Proof.
  intros a i ol or or' t Hi Ha Hf Hor. cbn [rr_tt fits pick jr fl fr] in *. destruct t as [r|r|r|n]; cbn [tt_add jred].
  - destruct Hf as [Hf _]. destruct ol as [l|]; [|contradiction]. cbn [unwrap bind]. rewrite push_ok by assumption. reflexivity.
  - destruct ol as [l|]; [|contradiction]. cbn [unwrap bind]. rewrite push_ok by assumption. cbn [bind]. rewrite set_ur_after. reflexivity.
  - destruct Hor as [-> | ->]; [|contradiction]. destruct or as [l|]; [|contradiction]. cbn [unwrap bind].
    rewrite push_ok by assumption. cbn [bind]. rewrite set_ul_after. reflexivity.
  - rewrite push_new_ok by assumption. cbn [bind]. rewrite set_ul_after, set_ur_after. reflexivity.
Qed.

Lemma tt_done_ok : done_ok rr_tt is_left is_left tt_done.
Proof.
  intros g r nn Hf Hr. unfold tt_done. destruct (a_ul (total g r)) eqn:Hu; destruct (a_ur (total g r)) eqn:Hv.
  - exists (JLR r). split; [reflexivity|]. split; [reflexivity|]. intros n rn. split; [split; discriminate|].
    intros o [-> | ->]; right; [left|right]; (split; [assumption|reflexivity]).
  - exists (JL r). split; [reflexivity|]. split; [reflexivity|]. intros n rn. split; [discriminate|].
    intros o ->. right. left. split; [assumption|reflexivity].
  - exists (JR r). split; [reflexivity|]. split; [reflexivity|]. intros n rn. split; [discriminate|].
    intros o ->. right. right. split; [assumption|reflexivity].
  - rewrite Hf. exists (JN nn). split; [reflexivity|]. split; [exact Hr|]. intros n rn. split; [exact I|]. intros o ->. left. reflexivity.
Qed.

End SpecTT.

(** * Two leaves *)
Section LeafTT.
Context {E : Env} {K V R : Type} {KK : Key K}.
Context (rdef : R) (rd : R -> R -> R) (q : Prop).
Context (both : joint_op (K * V) V R) (lop rop : transform_op (K * V) V R).
Notation jok := (jok rdef rd (sp_tt q both lop rop) rr_tt).
Notation joint_ok := (joint_ok rdef rd (sp_tt q both lop rop) rr_tt).
Notation bi := (tt_bi both).
Notation li := (tt_li lop).
Notation ri := (tt_ri rop).
Notation g := (tt_gen lop rop).
Notation fine := (fine rdef rd bi li ri g (lo_tt q) hi_mm).

Lemma tt_jkeeps (ln lr : list (K * V)) : jkeeps bi li ri ln lr.
Proof.
  intros c x. unfold joined.
  assert (H : forall (o : vres V R) e, Some x = t_to o e -> ecls x = ecls e) by (intros [ | | ] ? [=]; subst; reflexivity).
  destruct (lookup c ln) as [e|] eqn:He; destruct (lookup c lr) as [e'|] eqn:He'; [| | |discriminate].
  - apply lookup_in in He'. apply lookup_in in He. destruct He as [He <-]. destruct He' as [_ Hc]. cbn.
    destruct (jcall both e e'); cbn; intros [=]; subst; auto.
  - apply lookup_in in He. destruct He as [_ <-]. cbn. apply H.
  - apply lookup_in in He'. destruct He' as [_ <-]. cbn. apply H.
Qed.

Lemma fine_merged ln lr out : merged (fspec bi li ri g (lo_tt q) hi_mm) ln lr out -> merged (sp_tt q both lop rop) ln lr out.
Proof.
  intros H c. specialize (H c). unfold joined in *. cbn [fspec sp_tt sB sL sR] in *.
  destruct (lookup c ln), (lookup c lr); try exact H. rewrite H. apply b_left_about.
Qed.

Lemma tt_fine d p n right t :
  fine d p (m_visit n) (m_visit right) (jout n right t) (jred t) -> wf d p right ->
  (is_JLR t -> merged (sp_tt q both lop rop) (m_visit n) (m_visit right) (m_visit right)) ->
  ~ (exists h, lo_tt q (cnt h (m_visit n)) (cnt h (m_visit right))) -> jok d p (Some n) (Some right) (Ret t).
Proof.
  intros (H1 & H2 & H3) HWr HJ H4. apply fine_merged in H2. split; [|exact H4]. split; [|split; [exact H3|]].
  - intros o Ho. cbn [rr_tt reads] in Ho. destruct t as [r|r|r|nn]; cbn [jout is_JLR ovisit] in *; try (subst o; split; assumption).
    destruct Ho as [-> | ->]; [split; assumption|]. split; [|exact (HJ I)]. intros m [= <-]. assumption.
  - destruct t; cbn; try split; try discriminate; exact I.
Qed.

Lemma jout_left n rn (t : tres K V R) : jout n rn (t_left t) = tout n t.
Proof. destruct t; reflexivity. Qed.
Lemma jout_right n rn (t : tres K V R) : jout n rn (t_right t) = tout rn t.
Proof. destruct t; reflexivity. Qed.
Lemma jred_left (t : tres K V R) : jred (t_left t) = tred t.
Proof. destruct t; reflexivity. Qed.
Lemma jred_right (t : tres K V R) : jred (t_right t) = tred t.
Proof. destruct t; reflexivity. Qed.
Lemma JLR_left (t : tres K V R) : ~ is_JLR (t_left t).
Proof. destruct t; exact (fun H => H). Qed.
Lemma JLR_right (t : tres K V R) : ~ is_JLR (t_right t).
Proof. destruct t; exact (fun H => H). Qed.

Lemma tt_apart_ok d p (this right : lnext K V) :
  wf d p (next_mnode this) -> wf d p (next_mnode right) -> hashk (next_key this) <> hashk (next_key right) ->
  jok d p (Some (next_mnode this)) (Some (next_mnode right)) (tt_apart rd lop rop this right d).
Proof.
  intros HW HWr Hh.
  destruct (leaf_entries _ _ _ HW) as (_ & _ & Hn & _). destruct (leaf_entries _ _ _ HWr) as (_ & _ & Hnr & _).
  pose proof (y_transform rdef rd lop this Hn) as Hl. pose proof (y_transform rdef rd rop right Hnr) as Hr.
  destruct (apart_ok rdef rd bi li ri g (lo_tt q) hi_mm d p this right _ _ _ _ _ _
    HW HWr Hh (tt_jkeeps _ _) (fun H => H) Hl Hr) as (lf & rf & Hf & HF).
  assert (HC := cnt_apart d p this right (lo_tt q) HW HWr (lo_tt_pos q) Hh).
  unfold tt_apart. rewrite Hf. cbn [bind]. cbn zeta in HF.
  destruct (tout (next_mnode this) (n_transform rd lop this)) as [a|] eqn:Ha;
    destruct (tout (next_mnode right) (n_transform rd rop right)) as [b|] eqn:Hb.
  - destruct HF as (c & -> & HF). cbn [bind]. apply tt_fine; [assumption|assumption|intros []|assumption].
  - apply tt_fine; [|assumption|intros H; destruct (JLR_left _ H)|assumption]. rewrite jout_left, jred_left, tout_with, tred_with, Ha. assumption.
  - apply tt_fine; [|assumption|intros H; destruct (JLR_right _ H)|assumption]. rewrite jout_right, jred_right, tout_with, tred_with, Hb. assumption.
  - apply tt_fine; [|assumption|intros H; destruct (JLR_right _ H)|assumption]. rewrite jout_right, jred_right, tout_with, tred_with, Hb. assumption.
Qed.

Lemma tt_same d p (this right : lnext K V) t :
  wf d p (next_mnode this) -> wf d p (next_mnode right) -> hashk (next_key this) = hashk (next_key right) ->
  ~ lo_tt q (length (m_visit (next_mnode this))) (length (m_visit (next_mnode right))) ->
  yield rdef rd g (jout (next_mnode this) (next_mnode right) t) (jred t)
    (items bi li ri (m_visit (next_mnode this)) (m_visit (next_mnode right))) ->
  (is_JLR t -> all_lr both (m_visit (next_mnode this)) (m_visit (next_mnode right)) /\
     filter (unmatched (m_visit (next_mnode this))) (m_visit (next_mnode right)) = []) ->
  jok d p (Some (next_mnode this)) (Some (next_mnode right)) (Ret t).
Proof.
  intros HW HWr Hh Hc Hy HJ. apply tt_fine; [apply leaf_same; try assumption; apply tt_jkeeps|assumption| |].
  - intros Hj. destruct (HJ Hj) as [H1 H2]. intros c. unfold joined. cbn [sp_tt sB sL sR].
    destruct (lookup c (m_visit (next_mnode this))) as [e|] eqn:He.
    + apply lookup_in in He. destruct He as [He <-]. destruct (H1 e He) as (e' & -> & Hlr). left.
      destruct (jcall both e e'); try contradiction. cbn. auto.
    + destruct (lookup c (m_visit (next_mnode right))) as [e'|] eqn:He'; [|reflexivity]. exfalso.
      apply lookup_in in He'. destruct He' as [He' <-].
      assert (H : In e' (filter (unmatched (m_visit (next_mnode this))) (m_visit (next_mnode right)))).
      { apply filter_In. split; [assumption|]. unfold unmatched. rewrite He. reflexivity. }
      rewrite H2 in H. destruct H.
  - rewrite (cnt_same d p this right (lo_tt q)) by (assumption || exact (lo_tt_pos q)). assumption.
Qed.

Lemma plural_l (l : lnode K V) d p : wf d p (ML l) -> plural (hashk (l_key l)) (l_visit l).
Proof.
  intros HW. destruct (leaf_entries _ _ (NL l) HW) as (HU & HH & _ & _). cbn [next_mnode m_visit next_key] in *.
  assert (H : exists e1 e2 l', l_visit l = e1 :: e2 :: l') by (destruct l as [k v [|] z|k v s z]; do 3 eexists; reflexivity).
  destruct H as (e1 & e2 & l' & Hl). rewrite Hl in *.
  pose proof (uniq_cons e1 (e2 :: l')) as [HX _]. destruct (HX HU) as [Hn _]. clear HX.
  exists (ecls e1), (ecls e2). split.
  - intros Hc. rewrite lookup_none in Hn. apply (Hn e2); [left; reflexivity|]. auto.
  - rewrite !HH by (auto with datatypes). split; [reflexivity|]. split; [reflexivity|].
    rewrite (in_lookup _ e1 HU), (in_lookup _ e2 HU) by (auto with datatypes). split; discriminate.
Qed.

Lemma tt_lnode_jok d p (l r : lnode K V) : joint_ok d p (ML l) (ML r) (tt_lnode rd both lop rop l r d).
Proof.
  intros HW HWr HD. destruct (leaf_entries _ _ (NL l) HW) as (HU & HH & Hl & _). destruct (leaf_entries _ _ (NL r) HWr) as (HUr & HHr & Hr & _).
  destruct (N.eq_dec (hashk (l_key l)) (hashk (l_key r))) as [Hh|Hh].
  - assert (HK : forall e e', In e (l_visit l) -> lookup (ecls e) (l_visit r) = Some e' -> ~ keeps_right (jcall both e e')).
    { intros e e' He He'. destruct HD as [HD _]. destruct (HD _ (plural_l l d p HW)) as [HD' _].
      rewrite Hh in HD' at 1. apply (HD' (plural_l r d p HWr) e e'). split; [exact (HH e He)|]. split; [|exact He'].
      apply in_lookup; assumption. }
    pose proof (tt_lnode_ok rdef rd both lop rop l r d Hh Hl HU HUr HK) as H.
    destruct (tt_lnode rd both lop rop l r d) as [t| |]; [|contradiction|].
    + destruct H as (Hlen & Hy & HJ). apply (tt_same d p (NL l) (NL r)); try assumption.
      cbn [next_mnode m_visit]. unfold lo_tt. lia.
    + cbn [JointP.jok ovisit]. apply (cnt_same d p (NL l) (NL r) hi_mm HW HWr hi_mm_pos Hh). cbn [next_mnode m_visit].
      left. split; [apply length_l|assumption].
  - unfold tt_lnode. apply N.eqb_neq in Hh. rewrite Hh. apply N.eqb_neq in Hh. apply (tt_apart_ok d p (NL l) (NL r)); assumption.
Qed.

Lemma not_plural_s h (s : snode K V) : ~ plural h (s_visit s).
Proof.
  intros (c & c' & Hn & _ & _ & H1 & H2). apply Hn.
  assert (H : forall c, lookup c (s_visit s) <> None -> c = cls (s_key s)).
  { intros c0 Hc. destruct (lookup c0 (s_visit s)) as [e|] eqn:He; [|contradiction]. apply lookup_in in He.
    destruct He as [[<-|[]] <-]. reflexivity. }
  rewrite (H c H1), (H c' H2). reflexivity.
Qed.

Lemma lookup_s (s : snode K V) c : lookup c (s_visit s) = if ceqb (cls (s_key s)) c then Some (s_key s, s_value s) else None.
Proof. unfold s_visit. rewrite lookup_cons. reflexivity. Qed.

Lemma tt_ls_tame (l : lnode K V) (s : snode K V) d p : wf d p (ML l) -> hashk (l_key l) = hashk (s_key s) ->
  tame both lop rop (l_visit l) (s_visit s) -> ls_tame both lop rop (l_visit l) s.
Proof.
  intros HW Hh [HD _]. destruct (leaf_entries _ _ (NL l) HW) as (HU & HH & _ & _). cbn [next_mnode m_visit next_key] in *.
  destruct (HD _ (plural_l l d p HW)) as [_ HT]. destruct (HT (not_plural_s _ s)) as [T1 T2]. clear HD HT.
  assert (Hs : lookup (cls (s_key s)) (s_visit s) = Some (s_key s, s_value s)) by (rewrite lookup_s, ceqb_refl; reflexivity).
  assert (Hn : forall c, c <> cls (s_key s) -> lookup c (s_visit s) = None).
  { intros c Hc. rewrite lookup_s. destruct (ceqb_spec (cls (s_key s)) c); [congruence|reflexivity]. }
  assert (HO : forall e, In e (l_visit l) -> ecls e <> cls (s_key s) -> only (hashk (l_key l)) (l_visit l) (s_visit s) e).
  { intros e He Hc. split; [auto|]. split; [apply in_lookup; assumption|auto]. }
  split.
  - intros e e1 He Hc Hk He1 Hc1. apply (T1 e (s_key s, s_value s) e1); auto.
    split; [auto|]. split; [apply in_lookup; assumption|]. rewrite Hc. assumption.
  - intros Hno Hst e1 e2 He1 Hs1 He2. apply (T2 (s_key s, s_value s) e1 e2); auto.
    split; [symmetry; exact Hh|]. split; [exact Hs|]. apply lookup_none. intros e He. exact (Hno e He).
Qed.

Lemma tt_lsnode_jok d p (l : lnode K V) (r : snode K V) : joint_ok d p (ML l) (MS r) (tt_lsnode rd both lop rop l r d).
Proof.
  intros HW HWr HD. destruct (leaf_entries _ _ (NL l) HW) as (HU & HH & Hl & _). unfold tt_lsnode.
  destruct (N.eqb_spec (hashk (l_key l)) (hashk (s_key r))) as [Hh|Hh].
  - destruct (tt_ls_impl_ok rdef rd both lop rop l r Hl HU (tt_ls_tame l r d p HW Hh HD)) as (H1 & H2 & _).
    apply (tt_same d p (NL l) (NS r)); try assumption.
    + cbn. unfold lo_tt. lia.
    + intros Hj. contradiction.
  - apply (tt_apart_ok d p (NL l) (NS r)); assumption.
Qed.

Lemma tt_snode_jok d p (l r : snode K V) : joint_ok d p (MS l) (MS r) (tt_snode rd both lop rop l r d).
Proof.
  intros HW HWr HD. unfold tt_snode.
  destruct (N.eqb_spec (hashk (s_key l)) (hashk (s_key r))) as [Hh|Hh].
  - apply (tt_same d p (NS l) (NS r)); try assumption.
    + cbn. unfold lo_tt. lia.
    + apply tt_s_items.
    + intros Hj. destruct (tt_s_impl_ok rdef rd both lop rop l r) as (_ & H & _). destruct (H Hj) as [Hk Hlr].
      rewrite keqb_cls in Hk. destruct (ceqb_spec (cls (s_key l)) (cls (s_key r))) as [Hc|]; [|discriminate].
      cbn [next_mnode m_visit]. split.
      * intros e [<-|[]]. exists (s_key r, s_value r). split; [|assumption]. rewrite lookup_s. change (ecls (s_key l, s_value l)) with (cls (s_key l)). rewrite Hc, ceqb_refl. reflexivity.
      * unfold s_visit at 2. cbn [filter]. unfold unmatched. rewrite lookup_s. change (ecls (s_key r, s_value r)) with (cls (s_key r)). rewrite Hc, ceqb_refl. reflexivity.
  - apply (tt_apart_ok d p (NS l) (NS r)); assumption.
Qed.

Lemma tt_lone_ok st : lone_ok rdef rd (sp_tt q both lop rop) rr_tt (tt_lone rdef rd st lop).
Proof.
  intros d p n HW _. destruct (m_transform_any rdef rd st lop d p n HW) as (t & H1 & H2 & H3 & H4).
  exists (t_left t). unfold tt_lone. rewrite H1. split; [reflexivity|]. pose proof (wf_uniq _ _ _ HW) as HU. split; [|split].
  - intros o Ho. assert (o = tout n t) as -> by (destruct t; exact Ho). split; [assumption|].
    intros c. rewrite H2, t_map_lookup by assumption. cbn [ovisit]. unfold joined. destruct (lookup c (m_visit n)); reflexivity.
  - intros [HM _] [Hg _]. cbn [rr_tt jr ovisit]. rewrite jred_left, (H3 HM Hg).
    change (reds (sp_tt q both lop rop)) with (reds (fspec bi li ri g (lo_tt q) hi_mm)).
    rewrite <- items_reds, items_left, map_map. reflexivity.
  - destruct t; cbn; [discriminate|exact I].
Qed.

Lemma tt_rone_ok st : rone_ok rdef rd (sp_tt q both lop rop) rr_tt (tt_rone rdef rd st rop).
Proof.
  intros d p n HW _. destruct (m_transform_any rdef rd st rop d p n HW) as (t & H1 & H2 & H3 & H4).
  exists (t_right t). unfold tt_rone. rewrite H1. split; [reflexivity|]. pose proof (wf_uniq _ _ _ HW) as HU. split; [|split].
  - intros o Ho. assert (o = tout n t) as -> by (destruct t; exact Ho). split; [assumption|].
    intros c. rewrite H2, t_map_lookup by assumption. cbn [ovisit]. unfold joined. cbn [lookup find]. destruct (lookup c (m_visit n)); reflexivity.
  - intros [HM _] [_ Hg]. cbn [rr_tt jr ovisit]. rewrite jred_right, (H3 HM Hg).
    change (reds (sp_tt q both lop rop)) with (reds (fspec bi li ri g (lo_tt q) hi_mm)).
    rewrite <- items_reds, items_right, map_map. reflexivity.
  - destruct t; cbn; [discriminate|exact I].
Qed.

End LeafTT.

(** * Mirrored operations *)
Section FlipTT.
Context {E : Env} {K V R : Type} {KK : Key K}.
Context (rdef : R) (rd : R -> R -> R) (q : Prop).

Lemma tt_from_tt both lop rop d p (n right : mnode K V) (o : outcome (jres K V R)) :
  joint_ok rdef rd (sp_tt q (jflip both) rop lop) rr_tt d p right n o ->
  joint_ok rdef rd (sp_tt q both lop rop) rr_tt d p n right (let* t := o in Ret (jres_flip t)).
Proof.
  intros H HW HWr HD. specialize (H HWr HW (tame_flip _ _ _ _ _ HD)).
  destruct o as [t| |]; cbn [jok bind ovisit] in *; [|assumption|].
  - destruct H as [(H1 & H2 & H3) H4]. split.
    + split; [|split].
      * intros o Ho.
        assert (Ho' : reads rr_tt t (Some right) (Some n) o) by (destruct t; cbn in *; tauto).
        destruct (H1 o Ho') as [Hw Hm]. split; [assumption|]. intros c. specialize (Hm c). unfold joined in *.
        cbn [sp_tt sB sL sR ovisit] in *. destruct (lookup c (m_visit n)), (lookup c (m_visit right)); try assumption.
        apply b_about_flip. assumption.
      * intros HC HG. assert (HG' : tt_gen rop lop) by (destruct HG; split; assumption).
        specialize (H2 HC HG'). cbn [rr_tt jr ovisit] in *.
        transitivity (jred t); [destruct t; reflexivity|]. rewrite H2. destruct HC as [HM HC]. apply (msum_perm _ _ HM _ _ HC).
        unfold reds. cbn [sp_tt rB rL rR].
        rewrite (merge_flip (fun e e' => [b_red (jcall both e e')])) by (eapply wf_uniq; eassumption).
        unfold merge. apply Permutation_app_tail.
        match goal with |- Permutation (flat_map ?f _) (flat_map ?h _) =>
          assert (Hx : forall x, f x = h x); [|rewrite (flat_map_ext f h Hx); reflexivity] end.
        intros e'. destruct (lookup (ecls e') (m_visit n)); [rewrite b_red_flip|]; reflexivity.
      * destruct t; cbn in *; tauto.
    + intros [h Hh]. apply H4. exists h. cbn [sp_tt lo] in *. unfold lo_tt in *. tauto.
  - destruct H as [h Hh]. exists h. cbn [sp_tt hi] in *. unfold hi_mm in *. tauto.
Qed.

Lemma tt_leaf_ok (both : joint_op (K * V) V R) lop rop : leaf_ok2 rdef rd (sp_tt q both lop rop) rr_tt (tt_leaf rd both lop rop).
Proof.
  intros d p [l|l] [r|r]; cbn [next_mnode tt_leaf].
  - apply tt_lnode_jok.
  - apply tt_lsnode_jok.
  - apply tt_from_tt. apply tt_lsnode_jok.
  - apply tt_snode_jok.
Qed.

Lemma tt_tree_leaf_ok st (both : joint_op (K * V) V R) lop rop d p n right :
  joint_ok rdef rd (sp_tt q both lop rop) rr_tt d p n (next_mnode right) (tt_tree_leaf rdef rd st both lop rop right n d).
Proof.
  exact (m_leaf_ok rdef rd (sp_tt q both lop rop) rr_tt is_left is_left (sp_tt_ok _ _ _ _) rr_tt_ok _ _ _ _ _
    (tt_add_ok rd) (tt_lone_ok rdef rd q both lop rop st) (tt_rone_ok rdef rd q both lop rop st) tt_done_ok (tt_leaf_ok both lop rop) n d p right).
Qed.

End FlipTT.

(** * Early returns and the whole *)
Section WholeTT.
Context {E : Env} {K V R : Type} {KK : Key K}.
Context (rdef : R) (rd : R -> R -> R) (st : strategy).

Lemma tt_short_ok both lop rop t d p (n right : mnode K V) : tt_short both lop rop = Some t -> wf d p n -> wf d p right ->
  jok rdef rd (sp_tt (tt_short (K := K) (V := V) (R := R) both lop rop = None) both lop rop) rr_tt d p (Some n) (Some right) (Ret t).
Proof.
  intros Ht HW HWr.
  assert (Hm : forall o, reads rr_tt t (Some n) (Some right) o ->
    owf d p o /\ merged (sp_tt (tt_short (K := K) (V := V) (R := R) both lop rop = None) both lop rop) (m_visit n) (m_visit right) (ovisit o)).
  { intros o Ho. destruct both as [f b|r|r|r|r], lop as [f1|r1|r1], rop as [f2|r2|r2]; try discriminate Ht;
      injection Ht as <-; cbn in Ho; subst o;
      (split; [intros m Hm; try discriminate Hm; injection Hm as <-; assumption|]);
      intros c; unfold joined; cbn [sp_tt sB sL sR ovisit];
      destruct (lookup c (m_visit n)), (lookup c (m_visit right)); cbn; try reflexivity; left; cbn; auto. }
  split.
  - split; [exact Hm|]. split.
    + intros _ [H1 H2]. exfalso. destruct both, lop, rop; try discriminate Ht; (destruct H1 || destruct H2).
    + destruct both, lop, rop; try discriminate Ht; injection Ht as <-; cbn; try discriminate; exact I.
  - intros [h [Hq _]]. congruence.
Qed.

Theorem m_tt_ok both lop rop d p (n right : mnode K V) :
  joint_ok rdef rd (sp_tt (tt_short (K := K) (V := V) (R := R) both lop rop = None) both lop rop) rr_tt d p n right
    (m_tt rdef rd st both lop rop n right d).
Proof.
  set (q := tt_short both lop rop = None).
  apply (m_joint_ok rdef rd (sp_tt q both lop rop) rr_tt is_left is_left (sp_tt_ok _ _ _ _) rr_tt_ok _ _ _ _ _
    (tt_add_ok rd) (tt_lone_ok rdef rd q both lop rop st) (tt_rone_ok rdef rd q both lop rop st) tt_done_ok (tt_leaf_ok rdef rd q both lop rop)).
  - intros. apply tt_tree_leaf_ok.
  - intros. apply tt_from_tt. apply tt_tree_leaf_ok.
  - intros t d' p' c rc Ht HW HWr _. apply tt_short_ok; assumption.
Qed.

End WholeTT.
