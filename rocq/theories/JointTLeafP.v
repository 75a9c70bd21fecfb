(** transform_with_transformed on collision lists and leaves with equal hashes. *)
From Coq Require Import NArith Arith List Bool Lia ZifyBool ZifyN ZifyNat Permutation.
From Verif Require Import Base Words WordsP Flag FlagP Bia BiaP Node Spec SpecP Inv NodeP InsertP TrieP Api ApiP
  Trans Transform LoopP SpecT TransformP Joint SpecJ JoinP JointP JointMP JointLeafP JointT.
Import ListNotations.
Open Scope N_scope.

Section Leaves.
Context {E : Env} {K V R : Type} {KK : Key K}.
Context (rdef : R) (rd : R -> R -> R).

(** The reading of a result that prefers the left entry. *)
Definition b_left (o : bres V R) (e e' : K * V) : option (K * V) :=
  match o with
  | BUnchangedLR _ | BUnchangedL _ => Some e
  | BUnchangedR _ => Some e'
  | BTransformed v _ => Some (fst e, v)
  | BDropped _ => None
  end.
Definition bitem (o : bres V R) (e e' : K * V) : option (K * V) * R := (b_left o e e', b_red o).
Definition jout (n rn : mnode K V) (t : jres K V R) : option (mnode K V) :=
  match t with
  | JLR _ | JL _ => Some n
  | JR _ => Some rn
  | JN n' => nnode n'
  end.
Definition is_lr (o : bres V R) : Prop := match o with BUnchangedLR _ => True | _ => False end.
Definition is_JR (t : jres K V R) : Prop := match t with JR _ => True | _ => False end.
Definition is_JLR (t : jres K V R) : Prop := match t with JLR _ => True | _ => False end.

Context (g : Prop).
Notation yield := (yield rdef rd g).

Lemma l_new_key k v nx : l_key (l_new k v nx : lnode K V) = k.
Proof. destruct nx; reflexivity. Qed.
Lemma l_new_value k v nx : l_value (l_new k v nx : lnode K V) = v.
Proof. destruct nx; reflexivity. Qed.
Lemma l_new_next k v nx : l_next (l_new k v nx : lnode K V) = nx.
Proof. destruct nx; reflexivity. Qed.
Lemma nnode_next (nx : lnext K V) (r : R) : nnode (next_nres nx r) = Some (next_mnode nx).
Proof. destruct nx; reflexivity. Qed.
Lemma nred_next (nx : lnext K V) (r : R) : nred (next_nres nx r) = r.
Proof. destruct nx; reflexivity. Qed.
Lemma next_leaf_ok (nx : lnext K V) : nx_ok nx -> leaf_ok (next_mnode nx).
Proof. destruct nx; [auto|intros _; exact I]. Qed.

Lemma y_one_any (o : option (mnode K V)) r x : Permutation (ovisit o) (olist (fst x)) -> r = snd x ->
  match o with Some n => leaf_ok n | None => True end -> yield o r [x].
Proof.
  intros H1 -> H3. split; [|split; [|assumption]].
  - unfold ents. cbn [flat_map]. rewrite app_nil_r. assumption.
  - intros [HM _] _. cbn [map]. rewrite (msum_one _ _ HM). reflexivity.
Qed.
Lemma y_two_any (o : option (mnode K V)) r x y : Permutation (ovisit o) (olist (fst x) ++ olist (fst y)) -> r = rd (snd x) (snd y) ->
  match o with Some n => leaf_ok n | None => True end -> yield o r [x; y].
Proof.
  intros H1 -> H3. split; [|split; [|assumption]].
  - unfold ents. cbn [flat_map]. rewrite app_nil_r. assumption.
  - intros [HM _] _. cbn [map]. rewrite msum_cons, (msum_one _ _ HM). reflexivity.
Qed.

Ltac fin Hnx := cbn [jout jred tout tred nnode nred ovisit m_visit bitem vitem b_left b_red fst snd t_to t_red olist app n_cons n_with
    leaf_ok] in *; rewrite ?nnode_next, ?nred_next, ?l_visit_next; cbn [ovisit next_mnode m_visit s_visit s_key s_value app];
    try reflexivity; try (apply lok_new; cbn [nx_ok]; auto; fail); try (apply next_leaf_ok; assumption); auto.

Lemma y_jj k v nx res that (next : jres K V R) q rn e' : nx_ok nx -> ~ keeps_right res -> ~ is_JR next ->
  yield (jout (next_mnode nx) rn next) (jred next) q ->
  exists t, jj rd (l_new k v nx) res that next = Ret t /\ ~ is_JR t /\ (is_JLR t -> is_lr res /\ is_JLR next) /\
    yield (jout (ML (l_new k v nx)) rn t) (jred t) (bitem res (k, v) e' :: q).
Proof.
  intros Hnx Hres Hnext Hy. pose proof Hy as (_ & _ & Hl).
  unfold jj. rewrite l_new_key, l_new_value, l_new_next.
  destruct res as [r|r|r|w r|r]; cbn [keeps_right] in Hres; try (contradiction Hres; exact I);
    destruct next as [r2|r2|r2|[c r2|l2 r2|s2 r2|r2]]; cbn [is_JR] in Hnext; try (contradiction Hnext; exact I);
    try (cbn in Hl; contradiction); (eexists; split; [reflexivity|]); cbn [is_JR is_JLR is_lr]; (split; [auto|]); (split; [tauto|]);
    eapply (y_add _ _ _ _ _ _ _ _ _ Hy); fin Hnx.
Qed.

Lemma y_jt k v nx res (that : snode K V) (next : tres K V R) q : nx_ok nx ->
  yield (tout (next_mnode nx) next) (tred next) q ->
  let t := jt rd (l_new k v nx) res that next in
  ~ is_JLR t /\ (is_JR t -> keeps_right res) /\
  yield (jout (ML (l_new k v nx)) (MS that) t) (jred t) (bitem res (k, v) (s_key that, s_value that) :: q).
Proof.
  intros Hnx Hy. pose proof Hy as (_ & _ & Hl). cbn zeta.
  unfold jt. rewrite l_new_key, l_new_value, l_new_next.
  destruct res as [r|r|r|w r|r]; destruct next as [r2|[c r2|l2 r2|s2 r2|r2]];
    try (cbn in Hl; contradiction); cbn [is_JR is_JLR keeps_right]; (split; [auto|]); (split; [auto|]);
    eapply (y_add _ _ _ _ _ _ _ _ _ Hy); fin Hnx.
Qed.

Lemma y_tj k v nx res (that : snode K V) (next : jres K V R) q : nx_ok nx -> ~ (stays res /\ is_JR next) ->
  yield (jout (next_mnode nx) (MS that) next) (jred next) q ->
  let t := tj rd (l_new k v nx) res that next in
  ~ is_JLR t /\ (is_JR t -> is_JR next) /\
  yield (jout (ML (l_new k v nx)) (MS that) t) (jred t) (vitem res (k, v) :: q).
Proof.
  intros Hnx Hno Hy. pose proof Hy as (_ & _ & Hl). cbn zeta.
  unfold tj. rewrite l_new_key, l_new_value, l_new_next.
  destruct res as [r|w r|r]; destruct next as [r2|r2|r2|[c r2|l2 r2|s2 r2|r2]];
    try (cbn in Hl; contradiction); cbn [is_JR is_JLR stays] in *; try (contradiction Hno; split; exact I);
    (split; [auto|]); (split; [auto|]); eapply (y_add _ _ _ _ _ _ _ _ _ Hy); fin Hnx.
Qed.

End Leaves.

Section Equal.
Context {E : Env} {K V R : Type} {KK : Key K}.
Context (rdef : R) (rd : R -> R -> R).
Context (both : joint_op (K * V) V R) (lop rop : transform_op (K * V) V R).

Definition tt_bi (e e' : K * V) : option (K * V) * R := bitem (jcall both e e') e e'.
Definition tt_li (e : K * V) : option (K * V) * R := vitem (tcall lop e) e.
Definition tt_ri (e' : K * V) : option (K * V) * R := vitem (tcall rop e') e'.
Definition tt_gen : Prop := t_generic lop /\ t_generic rop.
Notation yield := (yield rdef rd tt_gen).
Notation tt_items := (items tt_bi tt_li tt_ri).

Lemma y_gen_tt (g : Prop) (o : option (mnode K V)) r q : (tt_gen -> g) -> JointMP.yield rdef rd g o r q -> yield o r q.
Proof. intros Hg (H1 & H2 & H3). split; [assumption|]. split; [|assumption]. auto. Qed.

Notation s_e s := (s_key s, s_value s).

Lemma tt_s_impl_ok (s r : snode K V) :
  let t := tt_s_impl rd both lop rop s r in
  yield (jout (MS s) (MS r) t) (jred t) (if keqb (s_key s) (s_key r) then [tt_bi (s_e s) (s_e r)] else [tt_li (s_e s); tt_ri (s_e r)]) /\
  (is_JLR t -> keqb (s_key s) (s_key r) = true /\ is_lr (jcall both (s_e s) (s_e r))) /\
  (is_JR t -> if keqb (s_key s) (s_key r) then keeps_right (jcall both (s_e s) (s_e r))
              else goes (tcall lop (s_e s)) /\ stays (tcall rop (s_e r))).
Proof.
  cbn zeta. unfold tt_s_impl, tt_bi, tt_li, tt_ri. destruct (keqb (s_key s) (s_key r)).
  - destruct (jcall both _ _); (split; [apply y_one_any; cbn; auto|cbn; auto]).
  - destruct (tcall lop _); destruct (tcall rop _); (split; [apply y_two_any; cbn; auto; try apply perm_swap|cbn; auto]);
      try (split; tauto).
Qed.

Lemma tt_s_items (s r : snode K V) :
  let t := tt_s_impl rd both lop rop s r in
  yield (jout (MS s) (MS r) t) (jred t) (tt_items (s_visit s) (s_visit r)).
Proof.
  cbn zeta. eapply y_perm; [|apply tt_s_impl_ok]. unfold s_visit. rewrite keqb_cls.
  destruct (ceqb_spec (cls (s_key s)) (cls (s_key r))) as [Hc|Hc].
  - unfold items. rewrite merge_cons_both; [reflexivity|symmetry; exact Hc|reflexivity|reflexivity].
  - rewrite items_disj; [reflexivity|]. intros e1 e2 [<-|[]] [<-|[]] H. exact (Hc H).
Qed.

(** ** List against leaf *)

(** Why the right leaf came back unchanged. *)
Definition why (ln : list (K * V)) (s : snode K V) : Prop :=
  (exists e, In e ln /\ ecls e = cls (s_key s) /\ keeps_right (jcall both e (s_e s))) \/
  ((forall e, In e ln -> ecls e <> cls (s_key s)) /\ stays (tcall rop (s_e s)) /\ exists e, In e ln /\ goes (tcall lop e)).

Definition ls_tame (ln : list (K * V)) (s : snode K V) : Prop :=
  (forall e e1, In e ln -> ecls e = cls (s_key s) -> keeps_right (jcall both e (s_e s)) ->
     In e1 ln -> ecls e1 <> cls (s_key s) -> ~ stays (tcall lop e1)) /\
  ((forall e, In e ln -> ecls e <> cls (s_key s)) -> stays (tcall rop (s_e s)) ->
     forall e1 e2, In e1 ln -> stays (tcall lop e1) -> In e2 ln -> ~ goes (tcall lop e2)).

Lemma tt_ls_impl_ok (l : lnode K V) (s : snode K V) : lok l -> uniq (l_visit l) -> ls_tame (l_visit l) s ->
  let t := tt_ls_impl rd both lop rop l s in
  yield (jout (ML l) (MS s) t) (jred t) (tt_items (l_visit l) (s_visit s)) /\ ~ is_JLR t /\ (is_JR t -> why (l_visit l) s).
Proof.
  cbn zeta.
  assert (HS : forall k v nx (t : jres K V R), nx_ok nx -> uniq ((k, v) :: m_visit (next_mnode nx)) ->
    ls_tame ((k, v) :: m_visit (next_mnode nx)) s ->
    (cls k <> cls (s_key s) ->
     yield (jout (next_mnode nx) (MS s) t) (jred t) (tt_items (m_visit (next_mnode nx)) (s_visit s)) /\
       (is_JR t -> why (m_visit (next_mnode nx)) s)) ->
    let r := if keqb k (s_key s) then
        jt rd (l_new k v nx) (jcall both (k, v) (s_e s)) s (n_transform rd lop nx)
      else tj rd (l_new k v nx) (tcall lop (k, v)) s t in
    yield (jout (ML (l_new k v nx)) (MS s) r) (jred r) (tt_items ((k, v) :: m_visit (next_mnode nx)) (s_visit s)) /\
    ~ is_JLR r /\ (is_JR r -> why ((k, v) :: m_visit (next_mnode nx)) s)).
  { intros k v nx t Hnx HU [HT1 HT2] Hy. apply uniq_cons in HU. destruct HU as [Hn HU]. cbn zeta. rewrite keqb_cls.
    destruct (ceqb_spec (cls k) (cls (s_key s))) as [Hc|Hc].
    - pose proof (y_transform rdef rd lop nx Hnx) as Hy'. apply (y_gen_tt _ _ _ _ (fun H => proj1 H)) in Hy'.
      destruct (y_jt rdef rd tt_gen k v nx (jcall both (k, v) (s_e s)) s _ _ Hnx Hy') as (H1 & H2 & H3).
      split; [|split; [assumption|]].
      + eapply y_perm; [|exact H3]. unfold s_visit, items. rewrite merge_cons_both; [|symmetry; exact Hc|assumption|reflexivity].
        cbn [app]. apply perm_skip. fold (items tt_bi tt_li tt_ri (m_visit (next_mnode nx)) []). rewrite items_left. reflexivity.
      + intros Hr. left. exists (k, v). split; [left; reflexivity|]. split; [exact Hc|exact (H2 Hr)].
    - destruct (Hy Hc) as [Hy1 Hy2]. clear Hy.
      assert (Hno : ~ (stays (tcall lop (k, v)) /\ is_JR t)).
      { intros [Hst Hjr]. destruct (Hy2 Hjr) as [(e & He & Hce & Hkr)|(Hno & Hsr & e & He & Hgo)].
        - exact (HT1 e (k, v) (or_intror He) Hce Hkr (or_introl eq_refl) Hc Hst).
        - refine (HT2 _ Hsr (k, v) e (or_introl eq_refl) Hst (or_intror He) Hgo). intros e1 [<-|He1]; [exact Hc|auto]. }
      destruct (y_tj rdef rd tt_gen k v nx (tcall lop (k, v)) s t _ Hnx Hno Hy1) as (H1 & H2 & H3).
      split; [|split; [assumption|]].
      + eapply y_perm; [|exact H3]. unfold items. rewrite merge_cons; [reflexivity|].
        apply lookup_none. intros e [<-|[]] H. apply Hc. symmetry. exact H.
      + intros Hr. destruct (Hy2 (H2 Hr)) as [(e & He & Hce & Hkr)|(Hno' & Hsr & e & He & Hgo)].
        * left. exists e. split; [right; assumption|auto].
        * right. split; [intros e1 [<-|He1]; [exact Hc|auto]|]. split; [assumption|]. exists e. split; [right; assumption|assumption]. }
  assert (HTt : forall e ln, ecls e <> cls (s_key s) -> ls_tame (e :: ln) s -> ls_tame ln s).
  { intros e ln Hc [H1 H2]. split.
    - intros e0 e1 H3 H4 H5 H6 H7. apply (H1 e0 e1); auto with datatypes.
    - intros H3 H4 e1 e2 H5 H6 H7. apply (H2 ltac:(intros e0 [<-|H8]; auto) H4 e1 e2); auto with datatypes. }
  induction l as [k v n IH z|k v s' z]; cbn [lok]; intros Hl HU HT.
  - destruct Hl as [-> Hl].
    assert (HUn : uniq (l_visit n)) by (cbn [l_visit] in HU; apply uniq_cons in HU; apply HU).
    apply (HS k v (NL n) _ Hl HU HT). intros Hc. cbn [l_visit next_mnode m_visit] in *.
    destruct (IH Hl HUn (HTt (k, v) _ Hc HT)) as (H1 & _ & H3). split; assumption.
  - subst z. apply (HS k v (NS s') _ I HU HT). intros Hc. cbn [next_mnode m_visit].
    split; [apply tt_s_items|]. destruct (tt_s_impl_ok s' s) as (_ & _ & H3). intros Hr. specialize (H3 Hr).
    rewrite keqb_cls in H3. unfold s_visit. destruct (ceqb_spec (cls (s_key s')) (cls (s_key s))) as [Hc'|Hc'].
    + left. exists (s_e s'). split; [left; reflexivity|]. split; [exact Hc'|assumption].
    + right. destruct H3 as [Hgo Hst]. split; [intros e [<-|[]]; exact Hc'|]. split; [assumption|]. exists (s_e s').
      split; [left; reflexivity|assumption].
Qed.

(** ** List against list *)
Definition tt_pick (rights : list (K * V)) (e : K * V) : option (K * V) * R :=
  match lookup (ecls e) rights with Some e' => tt_bi e e' | None => tt_li e end.

Definition all_lr (ln rights : list (K * V)) : Prop :=
  forall e, In e ln -> exists e', lookup (ecls e) rights = Some e' /\ is_lr (jcall both e e').

Lemma v_left_item (r : vres V R) (e e' : K * V) : bitem (v_left r) e e' = vitem r e.
Proof. destruct r; destruct e; reflexivity. Qed.
Lemma v_left_right (r : vres V R) : ~ keeps_right (v_left r).
Proof. destruct r; exact (fun H => H). Qed.
Lemma v_left_lr (r : vres V R) : ~ is_lr (v_left r).
Proof. destruct r; exact (fun H => H). Qed.

Lemma tt_l_impl_ok rn (l : lnode K V) : forall rights, lok l -> uniq (l_visit l) -> uniq rights ->
  (forall e e', In e (l_visit l) -> lookup (ecls e) rights = Some e' -> ~ keeps_right (jcall both e e')) ->
  exists t rest, tt_l_impl rd both lop rop l rights = Ret (t, rest) /\ ~ is_JR t /\ (is_JLR t -> all_lr (l_visit l) rights) /\
    yield (jout (ML l) rn t) (jred t) (map (tt_pick rights) (l_visit l)) /\
    uniq rest /\ Permutation rest (filter (unmatched (l_visit l)) rights).
Proof.
  assert (Hnil : forall rights : list (K * V), filter (unmatched (@nil (K * V))) rights = rights).
  { intros rights. clear. induction rights; cbn; [|rewrite IHrights]; reflexivity. }
  assert (HS : forall k v nx rights (t : jres K V R) rest that,
    nx_ok nx -> uniq ((k, v) :: m_visit (next_mnode nx)) -> uniq rights ->
    (forall e', lookup (cls k) rights = Some e' -> ~ keeps_right (jcall both (k, v) e')) ->
    ~ is_JR t -> (is_JLR t -> all_lr (m_visit (next_mnode nx)) rights) ->
    yield (jout (next_mnode nx) rn t) (jred t) (map (tt_pick rights) (m_visit (next_mnode nx))) ->
    uniq rest -> Permutation rest (filter (unmatched (m_visit (next_mnode nx))) rights) ->
    exists t' rest',
      (let (result, rights) :=
         match take_key k rest with
         | Some (e, rights) => (jcall both (k, v) e, rights)
         | None => (v_left (tcall lop (k, v)), rest)
         end in
       let* t := jj rd (l_new k v nx) result that t in Ret (t, rights)) = Ret (t', rest') /\
      ~ is_JR t' /\ (is_JLR t' -> all_lr ((k, v) :: m_visit (next_mnode nx)) rights) /\
      yield (jout (ML (l_new k v nx)) rn t') (jred t') (map (tt_pick rights) ((k, v) :: m_visit (next_mnode nx))) /\
      uniq rest' /\ Permutation rest' (filter (unmatched ((k, v) :: m_visit (next_mnode nx))) rights)).
  { intros k v nx rights t rest that Hnx HU HUr Hkr Hjr Hjlr Hy HUrest HP. apply uniq_cons in HU. destruct HU as [Hn HU].
    assert (Hlk : lookup (cls k) rest = lookup (cls k) rights).
    { rewrite (lookup_perm _ _ _ HUrest HP). apply lookup_filter_unmatched. exact Hn. }
    pose proof (take_key_ok k rest HUrest) as HT. rewrite filter_unmatched_cons.
    cbn [map]. change (ecls (k, v)) with (cls k).
    destruct (take_key k rest) as [[e rest']|].
    - destruct HT as (H1 & H2 & H3 & H4).
      destruct (y_jj rdef rd tt_gen k v nx (jcall both (k, v) e) that t _ rn e Hnx (Hkr e ltac:(congruence)) Hjr Hy) as (t' & Ht & Hnr & Hlr & Hy').
      rewrite Ht. cbn [bind]. do 2 eexists. split; [reflexivity|]. split; [assumption|]. split; [|split; [|split; [assumption|]]].
      + intros Hj. destruct (Hlr Hj) as [Ha Hb]. intros e1 [<-|He1].
        * exists e. split; [exact (eq_trans (eq_sym Hlk) H1)|assumption].
        * exact (Hjlr Hb e1 He1).
      + unfold tt_pick at 1. change (ecls (k, v)) with (cls k). rewrite <- Hlk, H1. exact Hy'.
      + rewrite H4. apply without_perm. assumption.
    - destruct (y_jj rdef rd tt_gen k v nx (v_left (tcall lop (k, v))) that t _ rn (k, v) Hnx (v_left_right _) Hjr Hy) as (t' & Ht & Hnr & Hlr & Hy').
      rewrite Ht. cbn [bind]. do 2 eexists. split; [reflexivity|]. split; [assumption|]. split; [|split; [|split; [assumption|]]].
      + intros Hj. destruct (Hlr Hj) as [Ha _]. exfalso. exact (v_left_lr _ Ha).
      + unfold tt_pick at 1. change (ecls (k, v)) with (cls k). rewrite <- Hlk, HT. rewrite v_left_item in Hy'. exact Hy'.
      + rewrite <- (without_perm (cls k) _ _ HP). rewrite without_id by assumption. reflexivity. }
  induction l as [k v n IH z|k v s z]; cbn [lok]; intros rights Hl HU HUr HK.
  - destruct Hl as [-> Hl].
    assert (HUn : uniq (l_visit n)) by (cbn [l_visit] in HU; apply uniq_cons in HU; apply HU).
    destruct (IH rights Hl HUn HUr) as (t & rest & Ht & Hjr & Hjlr & Hy & HUrest & HP).
    { intros e e' He. apply HK. right. assumption. }
    destruct (HS k v (NL n) rights t rest None Hl HU HUr) as (t' & rest' & Ht' & H); try assumption.
    { intros e'. apply (HK (k, v)). left. reflexivity. }
    exists t', rest'. split; [|exact H]. rewrite <- Ht'. cbn [tt_l_impl l_key l_value]. rewrite Ht. reflexivity.
  - subst z. cbn [tt_l_impl l_key l_value].
    pose proof (take_key_ok (s_key s) rights HUr) as HT.
    assert (HUn : uniq (s_visit s)) by (cbn [l_visit] in HU; apply uniq_cons in HU; apply HU).
    assert (Hk0 : forall e', lookup (cls k) rights = Some e' -> ~ keeps_right (jcall both (k, v) e')).
    { intros e'. apply (HK (k, v)). left. reflexivity. }
    match goal with |- context [l_visit (LNS k v s ?z)] => assert (Hin : In (s_e s) (l_visit (LNS k v s z))) by (right; left; reflexivity) end.
    destruct (take_key (s_key s) rights) as [[e rest]|].
    + destruct HT as (H1 & H2 & H3 & H4). destruct e as [ek ev]. cbn [fst snd bind] in *.
      destruct (tt_s_impl_ok s (SN ek ev)) as (Hy & Hlr & Hr). cbn [s_key s_value] in *. rewrite H2 in Hy, Hlr, Hr.
      apply (HS k v (NS s) rights _ rest (Some (ek, ev)) I HU HUr Hk0); [| | |assumption|].
      * intros Hj. apply (HK (s_e s) (ek, ev) Hin); [exact H1|exact (Hr Hj)].
      * intros Hj e1 [<-|[]]. exists (ek, ev). split; [exact H1|]. exact (proj2 (Hlr Hj)).
      * cbn [next_mnode m_visit s_visit map]. unfold tt_pick. change (ecls (s_e s)) with (cls (s_key s)). rewrite H1.
        assert (Hout : forall t : jres K V R, ~ is_JR t -> jout (MS s) rn t = jout (MS s) (MS (SN ek ev)) t).
        { intros [| |?|?]; cbn; try reflexivity. intros []. exact I. }
        rewrite Hout; [exact Hy|]. intros Hj. apply (HK (s_e s) (ek, ev) Hin); [exact H1|exact (Hr Hj)].
      * cbn [next_mnode m_visit]. unfold s_visit. rewrite filter_unmatched_cons, Hnil. exact H4.
    + cbn [bind].
      pose proof (y_transform rdef rd lop (NS s) I) as Hy. apply (y_gen_tt _ _ _ _ (fun H => proj1 H)) in Hy.
      cbn [n_transform next_mnode m_visit s_visit map] in Hy.
      apply (HS k v (NS s) rights _ rights None I HU HUr Hk0); [| | |assumption|].
      * destruct (s_transform lop s); exact (fun H => H).
      * destruct (s_transform lop s); intros [].
      * cbn [next_mnode m_visit s_visit map]. unfold tt_pick. change (ecls (s_e s)) with (cls (s_key s)). rewrite HT.
        destruct (s_transform lop s) as [|n']; exact Hy.
      * cbn [next_mnode m_visit]. unfold s_visit. rewrite filter_unmatched_cons, Hnil.
        change (ecls (s_e s)) with (cls (s_key s)). rewrite without_id by assumption. reflexivity.
Qed.

Lemma tt_rest_ok rn (l : lnode K V) rights : forall (t : jres K V R) q, lok l -> ~ is_JR t ->
  yield (jout (ML l) rn t) (jred t) q ->
  exists t', tt_rest rd rop l rights t = Ret t' /\ ~ is_JR t' /\ (is_JLR t' -> rights = [] /\ is_JLR t) /\
    yield (jout (ML l) rn t') (jred t') (q ++ map tt_ri rights).
Proof.
  induction rights as [|e rights IH]; intros t q Hl Hjr Hy; cbn [tt_rest map].
  { exists t. rewrite app_nil_r. auto. }
  assert (Hstep : exists t1,
    (match tcall rop e, t with
         | _, JR _ => Panic
         | VUnchanged rr, JN n => Ret (JN (n_cons (fst e) (snd e) n (rd rr (nred n))))
         | VUnchanged rr, JLR rn | VUnchanged rr, JL rn =>
             Ret (JN (NRL (l_new (fst e) (snd e) (NL l)) (rd rr rn)))
         | VTransformed rv rr, JN n => Ret (JN (n_cons (fst e) rv n (rd rr (nred n))))
         | VTransformed rv rr, JLR rn | VTransformed rv rr, JL rn =>
             Ret (JN (NRL (l_new (fst e) rv (NL l)) (rd rr rn)))
         | VDropped rr, JN n => Ret (JN (n_with n (rd rr (nred n))))
         | VDropped rr, JLR rn | VDropped rr, JL rn => Ret (JL (rd rr rn))
         end) = Ret t1 /\ ~ is_JR t1 /\ ~ is_JLR t1 /\
    yield (jout (ML l) rn t1) (jred t1) (tt_ri e :: q)).
  { pose proof Hy as (_ & _ & Hlf). unfold tt_ri. destruct e as [ek ev].
    destruct (tcall rop (ek, ev)) as [r|w r|r];
      destruct t as [r2|r2|r2|[c r2|l2 r2|s2 r2|r2]]; cbn [is_JR] in Hjr; try (contradiction Hjr; exact I);
      try (cbn in Hlf; contradiction); (eexists; split; [reflexivity|]); cbn [is_JR is_JLR]; (split; [auto|]); (split; [auto|]);
      eapply (y_add _ _ _ _ _ _ _ _ _ Hy);
      cbn [jout jred tout tred nnode nred ovisit m_visit bitem vitem b_left b_red fst snd t_to t_red olist app n_cons n_with leaf_ok] in *;
      rewrite ?l_visit_next; cbn [next_mnode m_visit]; try reflexivity; try (apply lok_new; cbn [nx_ok]; auto; fail); auto. }
  destruct Hstep as (t1 & -> & H1 & H2 & H3). cbn [bind].
  destruct (IH t1 _ Hl H1 H3) as (t' & H4 & H5 & H6 & H7). exists t'. split; [assumption|]. split; [assumption|]. split.
  - intros Hj. destruct (H6 Hj). contradiction.
  - eapply y_perm; [apply Permutation_middle|]. exact H7.
Qed.

Lemma tt_items_alt (ln lr : list (K * V)) : tt_items ln lr = map (tt_pick lr) ln ++ map tt_ri (filter (unmatched ln) lr).
Proof.
  unfold items, merge, tt_pick. f_equal.
  - induction ln as [|e l IH]; cbn; [reflexivity|]. rewrite IH. destruct (lookup (ecls e) lr); reflexivity.
Qed.

Lemma tt_lnode_ok (l r : lnode K V) d : hashk (l_key l) = hashk (l_key r) -> lok l -> uniq (l_visit l) -> uniq (l_visit r) ->
  (forall e e', In e (l_visit l) -> lookup (ecls e) (l_visit r) = Some e' -> ~ keeps_right (jcall both e e')) ->
  match tt_lnode rd both lop rop l r d with
  | Ret t => (length (l_visit r) < 3)%nat /\ yield (jout (ML l) (ML r) t) (jred t) (tt_items (l_visit l) (l_visit r)) /\
      (is_JLR t -> all_lr (l_visit l) (l_visit r) /\ filter (unmatched (l_visit l)) (l_visit r) = [])
  | Diverge => (3 <= length (l_visit r))%nat
  | Panic => False
  end.
Proof.
  intros Hh Hl HU HUr HK. unfold tt_lnode. rewrite Hh, N.eqb_refl, rights_ok.
  destruct r as [k v [k1 v1 n1 z1|k1 v1 s1 z1] z|k v s z]; cbn [l_next bind]; [destruct n1; cbn; lia|cbn; lia|].
  set (r := LNS k v s z) in *.
  destruct (tt_l_impl_ok (ML r) l (l_visit r) Hl HU HUr HK) as (t & rest & -> & Hjr & Hjlr & Hy & HUrest & HP).
  cbn [bind]. destruct (tt_rest_ok (ML r) l rest t _ Hl Hjr Hy) as (t' & -> & Hjr' & Hjlr' & Hy').
  split; [cbn; lia|]. split.
  - eapply y_perm; [|exact Hy']. rewrite tt_items_alt. apply Permutation_app_head. apply Permutation_map. assumption.
  - intros Hj. destruct (Hjlr' Hj) as [-> Hj']. split; [exact (Hjlr Hj')|]. apply Permutation_nil. assumption.
Qed.

End Equal.
