(** Collision lists and leaves with the same hash: transform_with_transmuted,
    transmute_with_transformed and transmute_with_transmuted. *)
From Coq Require Import NArith Arith List Bool Lia ZifyBool ZifyN ZifyNat Permutation.
From Verif Require Import Base Words WordsP Flag FlagP Bia BiaP Node Spec SpecP Inv NodeP InsertP TrieP Api ApiP
  Trans Transform LoopP SpecT TransformP Joint SpecJ JoinP JointP JointMP.
Import ListNotations.
Open Scope N_scope.

(** * Vectors *)
Lemma skipn_next {A} (l1 l2 : list A) a : skipn (Datatypes.S (length l1)) (l1 ++ a :: l2) = l2.
Proof.
  rewrite skipn_app. rewrite skipn_all2 by lia.
  replace (Datatypes.S (length l1) - length l1)%nat with 1%nat by lia. reflexivity.
Qed.

Lemma swap_remove_perm {A} i (l : list A) a r : swap_remove i l = Some (a, r) -> Permutation l (a :: r).
Proof.
  unfold swap_remove. destruct (nth_error l i) as [x|] eqn:Hi; [|discriminate].
  set (q := removelast _). intros H. assert (Hq : a = x /\ r = q) by (clearbody q; injection H as -> ->; auto).
  destruct Hq as [-> ->]. subst q. clear H. rename x into a.
  destruct (nth_error_split _ _ Hi) as (l1 & l2 & -> & <-).
  rewrite firstn_app, Nat.sub_diag, firstn_all. cbn [firstn]. rewrite app_nil_r.
  rewrite skipn_next.
  assert (Hlast : last (l1 ++ a :: l2) a = last (a :: l2) a).
  { clear. induction l1 as [|x l1 IH]; [reflexivity|]. rewrite <- IH. cbn. destruct l1; reflexivity. }
  rewrite Hlast. rewrite removelast_app by discriminate.
  transitivity (a :: l1 ++ l2); [symmetry; apply Permutation_middle|]. apply perm_skip. apply Permutation_app_head.
  destruct l2 as [|y l2]; [reflexivity|].
  change (last (a :: y :: l2) a) with (last (y :: l2) a).
  change (removelast (last (y :: l2) a :: y :: l2)) with (last (y :: l2) a :: removelast (y :: l2)).
  rewrite (app_removelast_last a (l := y :: l2)) at 1 by discriminate.
  symmetry. apply Permutation_cons_append.
Qed.

Lemma position_some {A} (p : A -> bool) l i : position p l = Some i -> exists a, nth_error l i = Some a /\ p a = true.
Proof.
  revert i. induction l as [|x l IH]; cbn; intros i H; [discriminate|]. destruct (p x) eqn:Hp.
  - injection H as <-. exists x. auto.
  - destruct (position p l) as [j|]; [|discriminate]. injection H as <-. destruct (IH j eq_refl) as (a & H1 & H2). exists a. auto.
Qed.
Lemma position_none {A} (p : A -> bool) l : position p l = None -> forall a, In a l -> p a = false.
Proof.
  induction l as [|x l IH]; cbn; intros H a Ha; [destruct Ha|]. destruct (p x) eqn:Hp; [discriminate|].
  destruct (position p l); [discriminate|]. destruct Ha as [<-|Ha]; auto.
Qed.

Section Take.
Context {E : Env} {K L W : Type} {KK : Key K} {KL : Key L}.

Lemma take_key_ok (k : K) (rights : list (L * W)) : uniq rights ->
  match take_key k rights with
  | Some (e, rest) => lookup (cls k) rights = Some e /\ keqb k (fst e) = true /\ uniq rest /\
      Permutation rest (without (cls k) rights)
  | None => lookup (cls k) rights = None
  end.
Proof.
  intros HU. unfold take_key. destruct (position _ rights) as [i|] eqn:Hp.
  - destruct (position_some _ _ _ Hp) as (e & Hn & He). unfold swap_remove. rewrite Hn.
    set (rest := removelast _).
    assert (HP : Permutation rights (e :: rest)).
    { apply (swap_remove_perm i). unfold swap_remove. rewrite Hn. reflexivity. }
    clearbody rest.
    assert (Hc : ecls e = cls k) by (unfold keqb in He; apply ceqb_eq in He; symmetry; exact He).
    assert (HU' : uniq (e :: rest)) by (eapply uniq_perm; eassumption).
    assert (Hl : lookup (cls k) rights = Some e).
    { rewrite (lookup_perm _ _ _ HU HP), lookup_cons, Hc, ceqb_refl. reflexivity. }
    apply uniq_cons in HU'. destruct HU' as [Hn' HU'].
    split; [assumption|]. split; [assumption|]. split; [assumption|].
    rewrite (without_perm (cls k) _ _ HP). rewrite without_cons, Hc, ceqb_refl.
    rewrite without_id; [reflexivity|]. rewrite <- Hc. assumption.
  - apply lookup_none. intros e He Hc. pose proof (position_none _ _ Hp e He) as H. cbn beta in H.
    unfold keqb in H. unfold ecls in Hc. rewrite Hc, ceqb_refl in H. discriminate.
Qed.

End Take.

Section Filter.
Context {E : Env} {K V L W : Type} {KK : Key K} {KL : Key L}.

Lemma unmatched_cons (e : K * V) l (e' : L * W) : unmatched (e :: l) e' = negb (ceqb (ecls e) (ecls e')) && unmatched l e'.
Proof. unfold unmatched. rewrite lookup_cons. destruct (ceqb (ecls e) (ecls e')); reflexivity. Qed.

Lemma filter_unmatched_cons (e : K * V) l (r : list (L * W)) :
  filter (unmatched (e :: l)) r = without (ecls e) (filter (unmatched l) r).
Proof.
  unfold without. induction r as [|x r IH]; cbn [filter]; [reflexivity|]. rewrite unmatched_cons.
  destruct (unmatched l x); rewrite ?andb_true_r, ?andb_false_r; cbn [filter]; rewrite <- IH; [|reflexivity].
  rewrite ceqb_sym. destruct (ceqb (ecls x) (ecls e)); reflexivity.
Qed.

Lemma lookup_filter_unmatched (l : list (K * V)) (r : list (L * W)) c : lookup c l = None ->
  lookup c (filter (unmatched l) r) = lookup c r.
Proof.
  intros H. induction r as [|x r IH]; cbn [filter]; [reflexivity|].
  rewrite (lookup_cons c x r). destruct (unmatched l x) eqn:Hx.
  - rewrite lookup_cons, IH. reflexivity.
  - rewrite IH. destruct (ceqb_spec (ecls x) c) as [Hc|]; [|reflexivity].
    unfold unmatched in Hx. rewrite Hc, H in Hx. discriminate.
Qed.

Lemma filter_uniq (p : L * W -> bool) r : uniq r -> uniq (filter p r).
Proof.
  induction r as [|x r IH]; cbn [filter]; intros H; [constructor|]. apply uniq_cons in H. destruct H as [Hn H].
  destruct (p x); [|auto]. apply uniq_cons. split; [|auto].
  rewrite lookup_none in *. intros e He. apply filter_In in He. apply Hn. apply He.
Qed.

End Filter.

Lemma rights_diverge {L W} n (right r : lnode L W) rights : (exists l, l_next right = NL l) -> (exists l, l_next r = NL l) ->
  rights_loop n right r rights = Diverge.
Proof.
  intros Hright. revert r rights. induction n as [|n IH]; intros r rights [l Hl]; cbn; [reflexivity|].
  rewrite Hl. apply IH. assumption.
Qed.

Lemma rights_ok {E : Env} {L W} (right : lnode L W) :
  rights_loop fuel right right [(l_key right, l_value right)] =
  match l_next right with NS _ => Ret (l_visit right) | NL _ => Diverge end.
Proof.
  destruct right as [k v n z|k v s z].
  - cbn [l_next]. apply rights_diverge; eexists; reflexivity.
  - pose proof fuel_ge. destruct fuel as [|f]; [lia|]. reflexivity.
Qed.

Lemma l_eta {E : Env} {K V} {KK : Key K} (P : lnode K V -> Prop) (l : lnode K V) : lok l ->
  (nx_ok (l_next l) -> P (l_new (l_key l) (l_value l) (l_next l))) -> P l.
Proof. intros H HP. destruct (lok_eta l H) as [He Hn]. rewrite He. auto. Qed.

Lemma keqb_cls {E : Env} {K L} {KK : Key K} {KL : Key L} (k : K) (l : L) : keqb k l = ceqb (cls k) (cls l).
Proof. reflexivity. Qed.

(** * transform_with_transmuted *)
Section TM.
Context {E : Env} {K V L W R : Type} {KK : Key K} {KL : Key L}.
Context (rdef : R) (rd : R -> R -> R).
Context (both : transform_op ((K * V) * (L * W)) V R) (lop : transform_op (K * V) V R)
  (rop : transmute_op (L * W) K V R).

Definition tm_bi (e : K * V) (e' : L * W) : option (K * V) * R := vitem (tcall both (e, e')) e.
Definition tm_li (e : K * V) : option (K * V) * R := vitem (tcall lop e) e.
Definition tm_ri (e' : L * W) : option (K * V) * R := kitem (mcall rop e').
Definition tm_gen : Prop := t_generic lop /\ m_generic rop.
Notation yield := (yield rdef rd tm_gen).
Notation tm_items := (items tm_bi tm_li tm_ri).

Lemma y_gen (g : Prop) (o : option (mnode K V)) r q : (tm_gen -> g) -> JointMP.yield rdef rd g o r q -> yield o r q.
Proof. intros Hg (H1 & H2 & H3). split; [assumption|]. split; [|assumption]. auto. Qed.

Lemma y_one (o : option (mnode K V)) r x : Permutation (ovisit o) (olist (fst x)) -> r = snd x ->
  match o with Some n => leaf_ok n | None => True end -> yield o r [x].
Proof.
  intros H1 -> H3. split; [|split; [|assumption]].
  - unfold ents. cbn [flat_map]. rewrite app_nil_r. assumption.
  - intros [HM _] _. cbn [map]. rewrite (msum_one _ _ HM). reflexivity.
Qed.

Lemma y_two (o : option (mnode K V)) r x y : Permutation (ovisit o) (olist (fst x) ++ olist (fst y)) -> r = rd (snd x) (snd y) ->
  match o with Some n => leaf_ok n | None => True end -> yield o r [x; y].
Proof.
  intros H1 -> H3. split; [|split; [|assumption]].
  - unfold ents. cbn [flat_map]. rewrite app_nil_r. assumption.
  - intros [HM _] _. cbn [map]. rewrite msum_cons, (msum_one _ _ HM). reflexivity.
Qed.

Lemma tm_s_impl_ok (s : snode K V) (e' : L * W) :
  yield (tout (MS s) (tm_s_impl rd both lop rop s e')) (tred (tm_s_impl rd both lop rop s e'))
    (if keqb (s_key s) (fst e') then [tm_bi (s_key s, s_value s) e'] else [tm_li (s_key s, s_value s); tm_ri e']).
Proof.
  unfold tm_s_impl, tm_bi, tm_li, tm_ri. destruct (keqb (s_key s) (fst e')).
  - destruct (tcall both _); apply y_one; cbn; auto. 
  - destruct (tcall lop _); destruct (mcall rop e'); apply y_two; cbn; auto; apply perm_swap.
Qed.

Lemma tm_s_items (s : snode K V) (e' : L * W) :
  yield (tout (MS s) (tm_s_impl rd both lop rop s e')) (tred (tm_s_impl rd both lop rop s e'))
    (tm_items (s_visit s) [e']).
Proof.
  eapply y_perm; [|apply tm_s_impl_ok]. unfold s_visit. rewrite keqb_cls.
  destruct (ceqb_spec (cls (s_key s)) (cls (fst e'))) as [Hc|Hc].
  - unfold items. rewrite merge_cons_both; [reflexivity|symmetry; exact Hc|reflexivity|reflexivity].
  - rewrite items_disj; [reflexivity|]. intros e1 e2 [<-|[]] [<-|[]] H. exact (Hc H).
Qed.

Lemma tm_l_impl_ok (l : lnode K V) : forall rights, lok l -> uniq (l_visit l) -> uniq rights ->
  exists t rest, tm_l_impl rd both lop rop l rights = (t, rest) /\
    yield (tout (ML l) t) (tred t)
      (map (fun e => match lookup (ecls e) rights with Some e' => tm_bi e e' | None => tm_li e end) (l_visit l)) /\
    uniq rest /\ Permutation rest (filter (unmatched (l_visit l)) rights).
Proof.
  assert (HS : forall k v nx rights (t : tres K V R) rest q,
    nx_ok nx -> uniq ((k, v) :: m_visit (next_mnode nx)) -> uniq rights ->
    yield (tout (next_mnode nx) t) (tred t) q ->
    uniq rest -> Permutation rest (filter (unmatched (m_visit (next_mnode nx))) rights) ->
    exists t' rest',
      (let (result, rights) :=
         match take_key k rest with
         | Some (e, rights) => (tcall both ((k, v), e), rights)
         | None => (tcall lop (k, v), rest)
         end in
       (l_transform_result rd (l_new k v nx) result t, rights)) = (t', rest') /\
      yield (tout (ML (l_new k v nx)) t') (tred t')
        (match lookup (cls k) rights with Some e' => tm_bi (k, v) e' | None => tm_li (k, v) end :: q) /\
      uniq rest' /\ Permutation rest' (filter (unmatched ((k, v) :: m_visit (next_mnode nx))) rights)).
  { intros k v nx rights t rest q Hnx HU HUr Hy HUrest HP. apply uniq_cons in HU. destruct HU as [Hn HU].
    assert (Hlk : lookup (cls k) rest = lookup (cls k) rights).
    { rewrite (lookup_perm _ _ _ HUrest HP). apply lookup_filter_unmatched. exact Hn. }
    pose proof (take_key_ok k rest HUrest) as HT. rewrite filter_unmatched_cons.
    change (ecls (k, v)) with (cls k).
    destruct (take_key k rest) as [[e rest']|].
    - destruct HT as (H1 & H2 & H3 & H4). rewrite <- Hlk, H1. do 2 eexists. split; [reflexivity|].
      split; [apply y_result; assumption|]. split; [assumption|]. rewrite H4. apply without_perm. assumption.
    - rewrite <- Hlk, HT. do 2 eexists. split; [reflexivity|]. split; [apply y_result; assumption|]. split; [assumption|].
      rewrite <- (without_perm (cls k) _ _ HP). rewrite without_id by assumption. reflexivity. }
  induction l as [k v n IH z|k v s z]; cbn [lok]; intros rights Hl HU HUr.
  - destruct Hl as [-> Hl].
    assert (HUn : uniq (l_visit n)) by (cbn [l_visit] in HU; apply uniq_cons in HU; apply HU).
    destruct (IH rights Hl HUn HUr) as (t & rest & Ht & Hy & HUrest & HP).
    destruct (HS k v (NL n) rights t rest _ Hl HU HUr Hy HUrest HP) as (t' & rest' & Ht' & H).
    exists t', rest'. split; [|exact H]. rewrite <- Ht'. cbn [tm_l_impl l_key l_value]. rewrite Ht. reflexivity.
  - subst z. cbn [tm_l_impl l_key l_value].
    pose proof (take_key_ok (s_key s) rights HUr) as HT.
    assert (HUn : uniq (s_visit s)) by (cbn [l_visit] in HU; apply uniq_cons in HU; apply HU).
    destruct (take_key (s_key s) rights) as [[e rest]|].
    + destruct HT as (H1 & H2 & H3 & H4). pose proof (tm_s_impl_ok s e) as Hy. rewrite H2 in Hy.
      apply (HS k v (NS s) rights _ rest _ I HU HUr) in Hy; [|assumption|].
      * destruct Hy as (t' & rest' & Ht' & Hy & H). exists t', rest'. split; [exact Ht'|]. split; [|exact H].
        cbn [l_visit s_visit map]. change (ecls (s_key s, s_value s)) with (cls (s_key s)). rewrite H1. exact Hy.
      * cbn [next_mnode m_visit]. unfold s_visit. rewrite filter_unmatched_cons. cbn [filter]. rewrite H4.
        change (ecls (s_key s, s_value s)) with (cls (s_key s)). apply without_perm.
        assert (Hf : filter (unmatched (@nil (K * V))) rights = rights) by (clear; induction rights; cbn; [|rewrite IHrights]; reflexivity).
        rewrite Hf. reflexivity.
    + pose proof (y_transform rdef rd lop (NS s) I) as Hy. apply (y_gen _ _ _ _ (fun H => proj1 H)) in Hy.
      cbn [n_transform next_mnode m_visit] in Hy. unfold s_visit in Hy. cbn [map] in Hy.
      apply (HS k v (NS s) rights _ rights _ I HU HUr) in Hy; [|assumption|].
      * destruct Hy as (t' & rest' & Ht' & Hy & H). exists t', rest'. split; [exact Ht'|]. split; [|exact H].
        cbn [l_visit s_visit map]. change (ecls (s_key s, s_value s)) with (cls (s_key s)). rewrite HT. exact Hy.
      * cbn [next_mnode m_visit]. unfold s_visit. rewrite filter_unmatched_cons.
        assert (Hf : filter (unmatched (@nil (K * V))) rights = rights) by (clear; induction rights; cbn; [|rewrite IHrights]; reflexivity).
        rewrite Hf. change (ecls (s_key s, s_value s)) with (cls (s_key s)). rewrite without_id by assumption. reflexivity.
Qed.

Lemma tm_rest_ok (l : lnode K V) rights : forall t q, lok l -> yield (tout (ML l) t) (tred t) q ->
  yield (tout (ML l) (tm_rest rd rop l rights t)) (tred (tm_rest rd rop l rights t)) (q ++ map tm_ri rights).
Proof.
  induction rights as [|e rights IH]; intros t q Hl Hy; cbn [tm_rest map]; [rewrite app_nil_r; exact Hy|].
  eapply y_perm; [apply Permutation_middle|]. rewrite app_comm_cons. apply IH; [assumption|].
  unfold tm_ri, kitem. destruct (mcall rop e) as [k v r|r]; cbn [m_to m_red].
  - apply y_tcons; assumption.
  - apply y_twith. assumption.
Qed.

Lemma items_alt (ln : list (K * V)) (lr : list (L * W)) : tm_items ln lr =
  map (fun e => match lookup (ecls e) lr with Some e' => tm_bi e e' | None => tm_li e end) ln ++ map tm_ri (filter (unmatched ln) lr).
Proof.
  unfold items, merge. f_equal.
  - induction ln as [|e l IH]; cbn; [reflexivity|]. rewrite IH. destruct (lookup (ecls e) lr); reflexivity.
Qed.

Lemma tm_lnode_ok (l : lnode K V) (r : lnode L W) d : hashk (l_key l) = hashk (l_key r) -> lok l -> uniq (l_visit l) -> uniq (l_visit r) ->
  match tm_lnode rd both lop rop l r d with
  | Ret t => (length (l_visit r) < 3)%nat /\ yield (tout (ML l) t) (tred t) (tm_items (l_visit l) (l_visit r))
  | Diverge => (3 <= length (l_visit r))%nat
  | Panic => False
  end.
Proof.
  intros Hh Hl HU HUr. unfold tm_lnode. rewrite Hh, N.eqb_refl, rights_ok.
  destruct r as [k v [k1 v1 n1 z1|k1 v1 s1 z1] z|k v s z]; cbn [l_next bind]; [destruct n1; cbn; lia|cbn; lia|].
  set (r := LNS k v s z) in *.
  destruct (tm_l_impl_ok l (l_visit r) Hl HU HUr) as (t & rest & -> & Hy & HUrest & HP).
  cbn [bind]. split; [cbn; lia|].
  eapply y_perm; [|apply tm_rest_ok; [assumption|exact Hy]]. rewrite items_alt. apply Permutation_app_head.
  apply Permutation_map. assumption.
Qed.

Lemma tm_ls_impl_ok (l : lnode K V) (s : snode L W) : lok l -> uniq (l_visit l) ->
  yield (tout (ML l) (tm_ls_impl rd both lop rop l s)) (tred (tm_ls_impl rd both lop rop l s)) (tm_items (l_visit l) (s_visit s)).
Proof.
  assert (HS : forall k v nx (t : tres K V R), nx_ok nx -> uniq ((k, v) :: m_visit (next_mnode nx)) ->
    yield (tout (next_mnode nx) t) (tred t) (tm_items (m_visit (next_mnode nx)) (s_visit s)) ->
    let r := if keqb k (s_key s) then
        l_transform_result rd (l_new k v nx) (tcall both ((k, v), (s_key s, s_value s))) (n_transform rd lop nx)
      else l_transform_result rd (l_new k v nx) (tcall lop (k, v)) t in
    yield (tout (ML (l_new k v nx)) r) (tred r) (tm_items ((k, v) :: m_visit (next_mnode nx)) (s_visit s))).
  { intros k v nx t Hnx HU Hy. apply uniq_cons in HU. destruct HU as [Hn HU]. cbn zeta. rewrite keqb_cls.
    destruct (ceqb_spec (cls k) (cls (s_key s))) as [Hc|Hc].
    - eapply y_perm; [|apply y_result; [assumption|]; eapply y_gen; [|apply y_transform; assumption]; exact (@proj1 _ _)].
      unfold s_visit. unfold items. rewrite merge_cons_both; [|symmetry; exact Hc|assumption|reflexivity].
      cbn [app]. apply perm_skip. fold (items tm_bi tm_li tm_ri (m_visit (next_mnode nx)) []). rewrite items_left. reflexivity.
    - eapply y_perm; [|apply y_result; [assumption|exact Hy]]. unfold items. rewrite merge_cons; [reflexivity|].
      apply lookup_none. intros e [<-|[]] H. apply Hc. symmetry. exact H. }
  induction l as [k v n IH z|k v s' z]; cbn [lok]; intros Hl HU.
  - destruct Hl as [-> Hl].
    assert (HUn : uniq (l_visit n)) by (cbn [l_visit] in HU; apply uniq_cons in HU; apply HU).
    exact (HS k v (NL n) _ Hl HU (IH Hl HUn)).
  - subst z. exact (HS k v (NS s') _ I HU (tm_s_items s' (s_key s, s_value s))).
Qed.

End TM.

(** * transmute_with_transformed *)
Section MT.
Context {E : Env} {K V L W R : Type} {KK : Key K} {KL : Key L}.
Context (rdef : R) (rd : R -> R -> R).
Context (both : transform_op ((K * V) * (L * W)) W R) (lop : transmute_op (K * V) L W R)
  (rop : transform_op (L * W) W R).

Definition mt_bi (e : K * V) (e' : L * W) : option (L * W) * R := vitem (tcall both (e, e')) e'.
Definition mt_li (e : K * V) : option (L * W) * R := kitem (mcall lop e).
Definition mt_ri (e' : L * W) : option (L * W) * R := vitem (tcall rop e') e'.
Definition mt_gen : Prop := m_generic lop /\ t_generic rop.
Notation yield := (yield rdef rd mt_gen).
Notation mt_items := (items mt_bi mt_li mt_ri).

Lemma y_gen_mt (g : Prop) (o : option (mnode L W)) r q : (mt_gen -> g) -> JointMP.yield rdef rd g o r q -> yield o r q.
Proof. intros Hg (H1 & H2 & H3). split; [assumption|]. split; [|assumption]. auto. Qed.

Lemma mt_s_items (s : snode K V) (r : snode L W) :
  yield (tout (MS r) (mt_s_impl rd both lop rop s r)) (tred (mt_s_impl rd both lop rop s r))
    (mt_items (s_visit s) (s_visit r)).
Proof.
  assert (Hy : yield (tout (MS r) (mt_s_impl rd both lop rop s r)) (tred (mt_s_impl rd both lop rop s r))
    (if keqb (s_key s) (s_key r) then [mt_bi (s_key s, s_value s) (s_key r, s_value r)]
     else [mt_li (s_key s, s_value s); mt_ri (s_key r, s_value r)])).
  { unfold mt_s_impl, mt_bi, mt_li, mt_ri.
    assert (H1 : forall (o : option (mnode L W)) r x, Permutation (ovisit o) (olist (fst x)) -> r = snd x ->
      match o with Some n => leaf_ok n | None => True end -> yield o r [x]).
    { intros o r0 x H1 -> H3. split; [|split; [|assumption]].
      - unfold ents. cbn [flat_map]. rewrite app_nil_r. assumption.
      - intros [HM _] _. cbn [map]. rewrite (msum_one _ _ HM). reflexivity. }
    assert (H2 : forall (o : option (mnode L W)) r x y, Permutation (ovisit o) (olist (fst x) ++ olist (fst y)) -> r = rd (snd x) (snd y) ->
      match o with Some n => leaf_ok n | None => True end -> yield o r [x; y]).
    { intros o r0 x y H2 -> H3. split; [|split; [|assumption]].
      - unfold ents. cbn [flat_map]. rewrite app_nil_r. assumption.
      - intros [HM _] _. cbn [map]. rewrite msum_cons, (msum_one _ _ HM). reflexivity. }
    destruct (keqb (s_key s) (s_key r)).
    - destruct (tcall both _); apply H1; cbn; auto.
    - destruct (mcall lop _); destruct (tcall rop _); apply H2; cbn; auto. }
  eapply y_perm; [|exact Hy]. unfold s_visit. rewrite keqb_cls.
  destruct (ceqb_spec (cls (s_key s)) (cls (s_key r))) as [Hc|Hc].
  - unfold items. rewrite merge_cons_both; [reflexivity|symmetry; exact Hc|reflexivity|reflexivity].
  - rewrite items_disj; [reflexivity|]. intros e1 e2 [<-|[]] [<-|[]] H. exact (Hc H).
Qed.

Lemma y_hit (s : snode L W) res (n : nres L W R) q : yield (nnode n) (nred n) q ->
  yield (nnode (mt_hit rd s res n)) (nred (mt_hit rd s res n)) (vitem res (s_key s, s_value s) :: q).
Proof.
  intros Hy. destruct res as [r|v r|r]; cbn [mt_hit vitem t_to t_red fst].
  - apply y_ncons. assumption.
  - apply y_ncons. assumption.
  - apply y_nwith. assumption.
Qed.

Lemma y_miss (s : snode L W) res (t : tres L W R) q : yield (tout (MS s) t) (tred t) q ->
  yield (tout (MS s) (mt_miss rd s res t)) (tred (mt_miss rd s res t)) (kitem res :: q).
Proof.
  intros Hy. destruct res as [k v r|r]; cbn [mt_miss].
  - apply (y_tcons rdef rd mt_gen (NS s)); [exact I|assumption].
  - destruct t as [r2|n].
    + eapply (y_add rdef rd _ _ _ _ _ _ _ Hy); cbn; auto.
    + apply y_nwith. exact Hy.
Qed.

Lemma mt_ls_impl_ok (l : lnode K V) (s : snode L W) : lok l -> uniq (l_visit l) ->
  yield (tout (MS s) (mt_ls_impl rd both lop rop l s)) (tred (mt_ls_impl rd both lop rop l s)) (mt_items (l_visit l) (s_visit s)).
Proof.
  assert (HS : forall k v nx (t : tres L W R), nx_ok nx -> uniq ((k, v) :: m_visit (next_mnode nx)) ->
    yield (tout (MS s) t) (tred t) (mt_items (m_visit (next_mnode nx)) (s_visit s)) ->
    let r := if keqb k (s_key s) then
        TN (mt_hit rd s (tcall both ((k, v), (s_key s, s_value s))) (n_transmute rd lop nx))
      else mt_miss rd s (mcall lop (k, v)) t in
    yield (tout (MS s) r) (tred r) (mt_items ((k, v) :: m_visit (next_mnode nx)) (s_visit s))).
  { intros k v nx t Hnx HU Hy. apply uniq_cons in HU. destruct HU as [Hn HU]. cbn zeta. rewrite keqb_cls.
    destruct (ceqb_spec (cls k) (cls (s_key s))) as [Hc|Hc].
    - cbn [tout tred].
      eapply y_perm; [|apply y_hit; eapply y_gen_mt; [|apply y_transmute; assumption]; exact (@proj1 _ _)].
      unfold s_visit. unfold items. rewrite merge_cons_both; [|symmetry; exact Hc|assumption|reflexivity].
      cbn [app]. apply perm_skip. fold (items mt_bi mt_li mt_ri (m_visit (next_mnode nx)) []). rewrite items_left. reflexivity.
    - eapply y_perm; [|apply y_miss; exact Hy]. unfold items. rewrite merge_cons; [reflexivity|].
      apply lookup_none. intros e [<-|[]] H. apply Hc. symmetry. exact H. }
  induction l as [k v n IH z|k v s' z]; cbn [lok]; intros Hl HU.
  - destruct Hl as [-> Hl].
    assert (HUn : uniq (l_visit n)) by (cbn [l_visit] in HU; apply uniq_cons in HU; apply HU).
    exact (HS k v (NL n) _ Hl HU (IH Hl HUn)).
  - subst z. exact (HS k v (NS s') _ I HU (mt_s_items s' s)).
Qed.

End MT.

(** * transmute_with_transmuted *)
Section MM.
Context {E : Env} {K V L W S X R : Type} {KK : Key K} {KL : Key L} {KS : Key S}.
Context (rdef : R) (rd : R -> R -> R).
Context (both : transmute_op ((K * V) * (L * W)) S X R) (lop : transmute_op (K * V) S X R)
  (rop : transmute_op (L * W) S X R).

Definition mm_bi (e : K * V) (e' : L * W) : option (S * X) * R := kitem (mcall both (e, e')).
Definition mm_li (e : K * V) : option (S * X) * R := kitem (mcall lop e).
Definition mm_ri (e' : L * W) : option (S * X) * R := kitem (mcall rop e').
Definition mm_gen : Prop := m_generic lop /\ m_generic rop.
Notation yield := (yield rdef rd mm_gen).
Notation mm_items := (items mm_bi mm_li mm_ri).

Lemma y_gen_mm (g : Prop) (o : option (mnode S X)) r q : (mm_gen -> g) -> JointMP.yield rdef rd g o r q -> yield o r q.
Proof. intros Hg (H1 & H2 & H3). split; [assumption|]. split; [|assumption]. auto. Qed.

Lemma mm_values_ok (e : K * V) (e' : L * W) :
  yield (nnode (mm_values rd both lop rop e e')) (nred (mm_values rd both lop rop e e'))
    (if keqb (fst e) (fst e') then [mm_bi e e'] else [mm_li e; mm_ri e']).
Proof.
  assert (H1 : forall (o : option (mnode S X)) r x, Permutation (ovisit o) (olist (fst x)) -> r = snd x ->
    match o with Some n => leaf_ok n | None => True end -> yield o r [x]).
  { intros o r0 x H1 -> H3. split; [|split; [|assumption]].
    - unfold ents. cbn [flat_map]. rewrite app_nil_r. assumption.
    - intros [HM _] _. cbn [map]. rewrite (msum_one _ _ HM). reflexivity. }
  assert (H2 : forall (o : option (mnode S X)) r x y, Permutation (ovisit o) (olist (fst x) ++ olist (fst y)) -> r = rd (snd x) (snd y) ->
    match o with Some n => leaf_ok n | None => True end -> yield o r [x; y]).
  { intros o r0 x y H2 -> H3. split; [|split; [|assumption]].
    - unfold ents. cbn [flat_map]. rewrite app_nil_r. assumption.
    - intros [HM _] _. cbn [map]. rewrite msum_cons, (msum_one _ _ HM). reflexivity. }
  unfold mm_values, mm_bi, mm_li, mm_ri. destruct (keqb (fst e) (fst e')).
  - destruct (mcall both _); apply H1; cbn; auto.
  - destruct (mcall lop _); destruct (mcall rop _); apply H2; cbn; auto.
Qed.

Lemma mm_values_items (e : K * V) (e' : L * W) :
  yield (nnode (mm_values rd both lop rop e e')) (nred (mm_values rd both lop rop e e')) (mm_items [e] [e']).
Proof.
  eapply y_perm; [|apply mm_values_ok]. rewrite keqb_cls.
  destruct (ceqb_spec (cls (fst e)) (cls (fst e'))) as [Hc|Hc].
  - unfold items. rewrite merge_cons_both; [reflexivity|symmetry; exact Hc|reflexivity|reflexivity].
  - rewrite items_disj; [reflexivity|]. intros e1 e2 [<-|[]] [<-|[]] H. exact (Hc H).
Qed.

Lemma mm_l_impl_ok (l : lnode K V) : forall rights, lok l -> uniq (l_visit l) -> uniq rights ->
  exists t rest, mm_l_impl rd both lop rop l rights = (t, rest) /\
    yield (nnode t) (nred t)
      (map (fun e => match lookup (ecls e) rights with Some e' => mm_bi e e' | None => mm_li e end) (l_visit l)) /\
    uniq rest /\ Permutation rest (filter (unmatched (l_visit l)) rights).
Proof.
  assert (HS : forall k v (nx : lnext K V) rights (t : nres S X R) rest q,
    uniq ((k, v) :: m_visit (next_mnode nx)) -> uniq rights ->
    yield (nnode t) (nred t) q ->
    uniq rest -> Permutation rest (filter (unmatched (m_visit (next_mnode nx))) rights) ->
    exists t' rest',
      (let (result, rights) :=
         match take_key k rest with
         | Some (e, rights) => (mcall both ((k, v), e), rights)
         | None => (mcall lop (k, v), rest)
         end in
       (l_transmute_result rd result t, rights)) = (t', rest') /\
      yield (nnode t') (nred t')
        (match lookup (cls k) rights with Some e' => mm_bi (k, v) e' | None => mm_li (k, v) end :: q) /\
      uniq rest' /\ Permutation rest' (filter (unmatched ((k, v) :: m_visit (next_mnode nx))) rights)).
  { intros k v nx rights t rest q HU HUr Hy HUrest HP. apply uniq_cons in HU. destruct HU as [Hn HU].
    assert (Hlk : lookup (cls k) rest = lookup (cls k) rights).
    { rewrite (lookup_perm _ _ _ HUrest HP). apply lookup_filter_unmatched. exact Hn. }
    pose proof (take_key_ok k rest HUrest) as HT. rewrite filter_unmatched_cons.
    change (ecls (k, v)) with (cls k).
    destruct (take_key k rest) as [[e rest']|].
    - destruct HT as (H1 & H2 & H3 & H4). rewrite <- Hlk, H1. do 2 eexists. split; [reflexivity|].
      split; [apply y_mresult; assumption|]. split; [assumption|]. rewrite H4. apply without_perm. assumption.
    - rewrite <- Hlk, HT. do 2 eexists. split; [reflexivity|]. split; [apply y_mresult; assumption|]. split; [assumption|].
      rewrite <- (without_perm (cls k) _ _ HP). rewrite without_id by assumption. reflexivity. }
  induction l as [k v n IH z|k v s z]; cbn [lok]; intros rights Hl HU HUr.
  - destruct Hl as [-> Hl].
    assert (HUn : uniq (l_visit n)) by (cbn [l_visit] in HU; apply uniq_cons in HU; apply HU).
    destruct (IH rights Hl HUn HUr) as (t & rest & Ht & Hy & HUrest & HP).
    destruct (HS k v (NL n) rights t rest _ HU HUr Hy HUrest HP) as (t' & rest' & Ht' & H).
    exists t', rest'. split; [|exact H]. rewrite <- Ht'. cbn [mm_l_impl l_key l_value]. rewrite Ht. reflexivity.
  - subst z. cbn [mm_l_impl l_key l_value].
    pose proof (take_key_ok (s_key s) rights HUr) as HT.
    assert (HUn : uniq (s_visit s)) by (cbn [l_visit] in HU; apply uniq_cons in HU; apply HU).
    assert (Hf : filter (unmatched (@nil (K * V))) rights = rights) by (clear; induction rights; cbn; [|rewrite IHrights]; reflexivity).
    destruct (take_key (s_key s) rights) as [[e rest]|].
    + destruct HT as (H1 & H2 & H3 & H4). pose proof (mm_values_ok (s_key s, s_value s) e) as Hy. cbn [fst] in Hy. rewrite H2 in Hy.
      apply (HS k v (NS s) rights _ rest _ HU HUr) in Hy; [|assumption|].
      * destruct Hy as (t' & rest' & Ht' & Hy & H). exists t', rest'. split; [exact Ht'|]. split; [|exact H].
        cbn [l_visit s_visit map]. change (ecls (s_key s, s_value s)) with (cls (s_key s)). rewrite H1. exact Hy.
      * cbn [next_mnode m_visit]. unfold s_visit. rewrite filter_unmatched_cons. rewrite H4.
        change (ecls (s_key s, s_value s)) with (cls (s_key s)). apply without_perm. rewrite Hf. reflexivity.
    + pose proof (y_transmute rdef rd lop (NS s) I) as Hy. apply (y_gen_mm _ _ _ _ (fun H => proj1 H)) in Hy.
      cbn [n_transmute next_mnode m_visit] in Hy. unfold s_visit in Hy. cbn [map] in Hy.
      apply (HS k v (NS s) rights _ rights _ HU HUr) in Hy; [|assumption|].
      * destruct Hy as (t' & rest' & Ht' & Hy & H). exists t', rest'. split; [exact Ht'|]. split; [|exact H].
        cbn [l_visit s_visit map]. change (ecls (s_key s, s_value s)) with (cls (s_key s)). rewrite HT. exact Hy.
      * cbn [next_mnode m_visit]. unfold s_visit. rewrite filter_unmatched_cons.
        rewrite Hf. change (ecls (s_key s, s_value s)) with (cls (s_key s)). rewrite without_id by assumption. reflexivity.
Qed.

Lemma mm_rest_ok rights : forall (t : nres S X R) q, yield (nnode t) (nred t) q ->
  yield (nnode (mm_rest rd rop rights t)) (nred (mm_rest rd rop rights t)) (q ++ map mm_ri rights).
Proof.
  induction rights as [|e rights IH]; intros t q Hy; cbn [mm_rest map]; [rewrite app_nil_r; exact Hy|].
  eapply y_perm; [apply Permutation_middle|]. rewrite app_comm_cons. apply IH.
  unfold mm_ri, kitem. destruct (mcall rop e) as [k v r|r]; cbn [m_to m_red].
  - apply y_ncons; assumption.
  - apply y_nwith. assumption.
Qed.

Lemma mm_lnode_ok (l : lnode K V) (r : lnode L W) d : hashk (l_key l) = hashk (l_key r) -> lok l -> uniq (l_visit l) -> uniq (l_visit r) ->
  match mm_lnode rd both lop rop l r d with
  | Ret t => (length (l_visit r) < 3)%nat /\ yield (nnode t) (nred t) (mm_items (l_visit l) (l_visit r))
  | Diverge => (3 <= length (l_visit r))%nat
  | Panic => False
  end.
Proof.
  intros Hh Hl HU HUr. unfold mm_lnode. rewrite Hh, N.eqb_refl, rights_ok.
  destruct r as [k v [k1 v1 n1 z1|k1 v1 s1 z1] z|k v s z]; cbn [l_next bind]; [destruct n1; cbn; lia|cbn; lia|].
  set (r := LNS k v s z) in *.
  destruct (mm_l_impl_ok l (l_visit r) Hl HU HUr) as (t & rest & -> & Hy & HUrest & HP).
  cbn [bind]. split; [cbn; lia|].
  eapply y_perm; [|apply mm_rest_ok; exact Hy].
  assert (HA : mm_items (l_visit l) (l_visit r) =
    map (fun e => match lookup (ecls e) (l_visit r) with Some e' => mm_bi e e' | None => mm_li e end) (l_visit l) ++
    map mm_ri (filter (unmatched (l_visit l)) (l_visit r))).
  { clear. generalize (l_visit r) as lr. generalize (l_visit l) as ln. intros. unfold items, merge. f_equal.
    induction ln as [|e ln IH]; cbn; [reflexivity|]. rewrite IH. destruct (lookup (ecls e) lr); reflexivity. }
  rewrite HA. apply Permutation_app_head. apply Permutation_map. assumption.
Qed.

Lemma mm_ls_impl_ok (l : lnode K V) (s : snode L W) : lok l -> uniq (l_visit l) ->
  yield (nnode (mm_ls_impl rd both lop rop l s)) (nred (mm_ls_impl rd both lop rop l s)) (mm_items (l_visit l) (s_visit s)).
Proof.
  assert (HS : forall k v (nx : lnext K V) (t : nres S X R), nx_ok nx -> uniq ((k, v) :: m_visit (next_mnode nx)) ->
    yield (nnode t) (nred t) (mm_items (m_visit (next_mnode nx)) (s_visit s)) ->
    let r := if keqb k (s_key s) then
        l_transmute_result rd (mcall both ((k, v), (s_key s, s_value s))) (n_transmute rd lop nx)
      else l_transmute_result rd (mcall lop (k, v)) t in
    yield (nnode r) (nred r) (mm_items ((k, v) :: m_visit (next_mnode nx)) (s_visit s))).
  { intros k v nx t Hnx HU Hy. apply uniq_cons in HU. destruct HU as [Hn HU]. cbn zeta. rewrite keqb_cls.
    destruct (ceqb_spec (cls k) (cls (s_key s))) as [Hc|Hc].
    - eapply y_perm; [|apply y_mresult; eapply y_gen_mm; [|apply y_transmute; assumption]; exact (@proj1 _ _)].
      unfold s_visit. unfold items. rewrite merge_cons_both; [|symmetry; exact Hc|assumption|reflexivity].
      cbn [app]. apply perm_skip. fold (items mm_bi mm_li mm_ri (m_visit (next_mnode nx)) []). rewrite items_left. reflexivity.
    - eapply y_perm; [|apply y_mresult; exact Hy]. unfold items. rewrite merge_cons; [reflexivity|].
      apply lookup_none. intros e [<-|[]] H. apply Hc. symmetry. exact H. }
  induction l as [k v n IH z|k v s' z]; cbn [lok]; intros Hl HU.
  - destruct Hl as [-> Hl].
    assert (HUn : uniq (l_visit n)) by (cbn [l_visit] in HU; apply uniq_cons in HU; apply HU).
    exact (HS k v (NL n) _ Hl HU (IH Hl HUn)).
  - subst z. exact (HS k v (NS s') _ I HU (mm_values_items (s_key s', s_value s') (s_key s, s_value s))).
Qed.

End MM.
