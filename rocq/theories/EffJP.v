(** The joint operations call the closure for both sides once per common key and
    the closures for one side once per other key. *)
From Coq Require Import NArith Arith List Bool Lia ZifyBool ZifyN ZifyNat Permutation.
From Verif Require Import Base Words WordsP Flag FlagP Bia BiaP Node Spec SpecP Inv NodeP InsertP TrieP Api ApiP
  Trans Transform LoopP SpecT TransformP Joint JointT SpecJ JoinP JointP JointMP JointLeafP Eff EffT EffJ EffP EffTP.
Import ListNotations.
Open Scope N_scope.

(** * Calls with a condition on what is returned *)
Section Gives.
Context {Q : Type} {A : Q -> Type}.

Definition gives {X} (l : list Q) (p : prog A X) (P : X -> Prop) : Prop := uses l p (fun x l' => P x /\ l' = []).

Lemma gives_bind {X Y} l1 l2 (p : prog A X) (k : X -> prog A Y) P P' :
  gives l1 p P -> (forall x, P x -> gives l2 (k x) P') -> gives (l1 ++ l2) (pbind p k) P'.
Proof.
  intros H1 H2. apply uses_bind. eapply uses_weak; [apply uses_frame; exact H1|].
  intros x k' (l0 & [HP ->] & HP'). eapply uses_perm; [exact HP'|]. apply H2. assumption.
Qed.
Lemma gives_spends {X Y} l1 l2 (p : prog A X) (k : X -> prog A Y) P :
  gives l1 p P -> (forall x, P x -> spends l2 (k x)) -> spends (l1 ++ l2) (pbind p k).
Proof.
  intros H1 H2. apply uses_bind. eapply uses_weak; [apply uses_frame; exact H1|].
  intros x k' (l0 & [HP ->] & HP'). eapply uses_perm; [exact HP'|]. apply H2. assumption.
Qed.
Lemma gives_perm {X} l l' (p : prog A X) P : Permutation l l' -> gives l p P -> gives l' p P.
Proof. apply uses_perm. Qed.
Lemma gives_weak {X} l (p : prog A X) (P P' : X -> Prop) : gives l p P -> (forall x, P x -> P' x) -> gives l p P'.
Proof. intros H HP. eapply uses_weak; [exact H|]. intros x l' [H1 H2]. auto. Qed.
Lemma gives_ret {X} (x : X) (P : X -> Prop) : P x -> gives [] (PRet x) P.
Proof. intros H. apply uses_ret. auto. Qed.
Lemma gives_of {X} l (p : prog A X) : spends l p -> gives l p (fun _ => True).
Proof. intros H. eapply uses_weak; [exact H|]. auto. Qed.
(** A call, then something without calls. *)
Lemma gives_then {X Y} l (p : prog A X) (k : X -> prog A Y) (P : Y -> Prop) :
  spends l p -> (forall x, gives [] (k x) P) -> gives l (pbind p k) P.
Proof. intros H1 H2. rewrite <- (app_nil_r l). eapply gives_bind; [apply gives_of; exact H1|]. auto. Qed.

End Gives.

(** * Merging *)
Section Merges.
Context {E : Env} {K V L W : Type} {KK : Key K} {KL : Key L} {C : Type}.
Context (fB : K * V -> L * W -> list C) (fL : K * V -> list C) (fR : L * W -> list C).

Lemma merge_disj l r : disj l r -> Permutation (merge fB fL fR l r) (flat_map fL l ++ flat_map fR r).
Proof.
  intros H. replace l with (l ++ []) at 1 by apply app_nil_r. change r with ([] ++ r) at 1. rewrite merge_app.
  - rewrite merge_nil_r, merge_nil_l. reflexivity.
  - exact H.
  - intros ? ? [].
Qed.
Lemma merge_one e e' : Permutation (merge fB fL fR [e] [e']) (if ceqb (ecls e) (ecls e') then fB e e' else fL e ++ fR e').
Proof.
  destruct (ceqb_spec (ecls e) (ecls e')) as [Hc|Hc].
  - rewrite merge_cons_both; [|symmetry; exact Hc|reflexivity|reflexivity]. rewrite merge_nil_l. cbn. rewrite app_nil_r. reflexivity.
  - rewrite merge_disj; [cbn; rewrite !app_nil_r; reflexivity|]. intros e1 e2 [<-|[]] [<-|[]]. exact Hc.
Qed.

Definition one (r : list (L * W)) (e : K * V) : list C := match lookup (ecls e) r with Some e' => fB e e' | None => fL e end.

Lemma leafy_disj (a : lnext K V) (b : lnext L W) :
  leafy (hashk (next_key a)) (next_mnode a) -> leafy (hashk (next_key b)) (next_mnode b) ->
  hashk (next_key a) <> hashk (next_key b) -> disj (m_visit (next_mnode a)) (m_visit (next_mnode b)).
Proof. intros Ha Hb Hn e e' He He' Hc. apply Hn. rewrite <- (leafy_hash _ _ _ Ha He), <- (leafy_hash _ _ _ Hb He'), Hc. reflexivity. Qed.

End Merges.

Lemma leafy_uniq {E : Env} {K V} {KK : Key K} h (n : mnode K V) : leafy h n -> uniq (m_visit n).
Proof. intros H. eapply wf_uniq. exact (leafy_wf 0 h n H). Qed.

(** * The traversals *)
Section Traverse.
Context {E : Env} {Q : Type} {A : Q -> Type} {K V L W S X R T : Type} {KK : Key K} {KL : Key L}.
Context (rdef : R) (rd : R -> R -> R).
Context (B : K * V -> L * W -> list Q) (Lk : K * V -> list Q) (Rk : L * W -> list Q).
Context (add : acc S X R -> N -> option (mnode K V) -> option (mnode L W) -> T -> outcome (acc S X R)).
Context (lone : mnode K V -> prog A T) (rone : mnode L W -> prog A T) (done : acc S X R -> outcome T).
Context (leaf : lnext K V -> lnext L W -> N -> prog A T).

Definition jspends (n : mnode K V) (right : mnode L W) (p : prog A T) : Prop :=
  spends (merge B Lk Rk (m_visit n) (m_visit right)) p.

Context (Hlone : forall d p n, wf d p n -> spends (flat_map Lk (m_visit n)) (lone n))
  (Hrone : forall d p n, wf d p n -> spends (flat_map Rk (m_visit n)) (rone n))
  (Hleaf : forall a b d, leafy (hashk (next_key a)) (next_mnode a) -> leafy (hashk (next_key b)) (next_mnode b) ->
     jspends (next_mnode a) (next_mnode b) (leaf a b d)).

Lemma slots_spread d p ln lr osl osr : p < 2 ^ off d -> spread d p ln osl -> spread d p lr osr ->
  Permutation (flat_map (fun i => merge B Lk Rk (ovisit (osl i)) (ovisit (osr i))) (range 0 (max_ones fw))) (merge B Lk Rk ln lr).
Proof.
  intros Hp Hl Hr. rewrite (proj1 Hl), (proj1 Hr). symmetry. apply merge_slots; [apply range_nodup|].
  intros i j _ _ Hij e e' He He' Hc. apply Hij.
  destruct (spread_key d p _ _ _ _ Hp Hl He) as [_ <-]. destruct (spread_key d p _ _ _ _ Hp Hr He') as [_ <-]. congruence.
Qed.

Lemma em_leaf_spends n : forall d p right, wf d p n -> wf d p (next_mnode right) ->
  jspends n (next_mnode right) (em_leaf rdef add lone rone done leaf right n d).
Proof.
  intros d p right HW. revert right.
  induction HW as [d p s Hs|d p l h HL Hl|d p bits values x Ho Hp Hok Hne Hx Hch IH]; intros right HWr.
  - apply (Hleaf (NS s) right d); [repeat split|apply (leafy_inv _ _ _ HWr)].
  - apply (Hleaf (NL l) right d); [|apply (leafy_inv _ _ _ HWr)]. eapply (leafy_inv d p (NL l)). econstructor; eassumption.
  - assert (HWC : wf d p (MC (BIA bits values x))) by (constructor; assumption).
    pose proof (spread_C _ _ _ _ _ HWC) as Hsl. pose proof (spread_leaf _ _ _ HWr) as Hsr.
    eapply spends_perm; [apply (slots_spread _ _ _ _ _ _ Hp Hsl Hsr)|].
    cbn [em_leaf]. rewrite flag_at_ok by assumption. cbn [bind unwrap fl_flag lift pbind].
    set (j := idx d (hashk (next_key right))) in *.
    apply spends_then; [|intros a; apply spends_lift]. apply spends_loop. intros a i Hi. apply range_in in Hi.
    unfold ecl_step. rewrite bat_bit_index_slot by (assumption || lia). cbn [lift pbind].
    rewrite nth_bit_ok by lia. cbn [unwrap_ok lift pbind]. rewrite pow2_eqb, (N.eqb_sym j i).
    destruct (getv bits values i) as [c|] eqn:Hc; destruct (N.eqb_spec i j) as [Hij|Hij]; cbn [ovisit].
    + apply spends_then; [|intros t; apply spends_lift]. apply (IH i c Hc right). apply (proj2 Hsr). rewrite Hij, N.eqb_refl. reflexivity.
    + rewrite merge_nil_r. apply spends_then; [|intros t; apply spends_lift]. eapply Hlone. eauto.
    + rewrite merge_nil_l. apply spends_then; [|intros t; apply spends_lift]. eapply Hrone. eassumption.
    + apply spends_ret.
Qed.

Context (tree_leaf : lnext L W -> mnode K V -> N -> prog A T) (leaf_tree : lnext K V -> mnode L W -> N -> prog A T).
Context (short : option T) (st : strategy).
Context (Htree_leaf : forall d p n right, wf d p n -> wf d p (next_mnode right) -> jspends n (next_mnode right) (tree_leaf right n d))
  (Hleaf_tree : forall d p n right, wf d p (next_mnode n) -> wf d p right -> jspends (next_mnode n) right (leaf_tree n right d))
  (Hshort : forall t, short = Some t -> (forall e e', B e e' = []) /\ (forall e, Lk e = []) /\ (forall e', Rk e' = [])).

Lemma em_joint_spends n : forall d p right, wf d p n -> wf d p right ->
  jspends n right (em_joint rdef rd add lone rone done leaf tree_leaf leaf_tree short st n right d).
Proof.
  intros d p right HW. revert right.
  induction HW as [d p s Hs|d p l h HL Hl|d p bits values x Ho Hp Hok Hne Hx Hch IH]; intros right HWr.
  - assert (HWs : wf d p (MS s)) by (constructor; assumption).
    destruct right as [c|r|r]; cbn [em_joint].
    + eapply (Hleaf_tree d p (NS s)); eassumption.
    + apply (Hleaf (NS s) (NL r)); [eapply (leafy_inv d p (NS s))|eapply (leafy_inv d p (NL r))]; eassumption.
    + apply (Hleaf (NS s) (NS r)); [eapply (leafy_inv d p (NS s))|eapply (leafy_inv d p (NS r))]; eassumption.
  - assert (HWs : wf d p (ML l)) by (econstructor; eassumption).
    destruct right as [c|r|r]; cbn [em_joint].
    + eapply (Hleaf_tree d p (NL l)); eassumption.
    + apply (Hleaf (NL l) (NL r)); [eapply (leafy_inv d p (NL l))|eapply (leafy_inv d p (NL r))]; eassumption.
    + apply (Hleaf (NL l) (NS r)); [eapply (leafy_inv d p (NL l))|eapply (leafy_inv d p (NS r))]; eassumption.
  - assert (HWC : wf d p (MC (BIA bits values x))) by (constructor; assumption).
    destruct right as [[rbits rvalues rx]|r|r]; cbn [em_joint].
    2:{ eapply (Htree_leaf d p _ (NL r)); eassumption. }
    2:{ eapply (Htree_leaf d p _ (NS r)); eassumption. }
    destruct short as [t|] eqn:Hsh.
    { destruct (Hshort t eq_refl) as (H1 & H2 & H3). unfold jspends, merge.
      rewrite (flat_map_nil Rk) by assumption. rewrite flat_map_nil; [apply spends_ret|].
      intros e. destruct (lookup _ _); auto. }
    pose proof (spread_C _ _ _ _ _ HWC) as Hsl. pose proof (spread_C _ _ _ _ _ HWr) as Hsr.
    assert (Hokr : okv (max_ones fw) rbits rvalues) by (inversion HWr; assumption).
    eapply spends_perm; [apply (slots_spread _ _ _ _ _ _ Hp Hsl Hsr)|].
    apply spends_then; [|intros a; apply spends_lift]. apply spends_run_loop. intros a i Hi. unfold ecc_step.
    rewrite bat_bit_index_slot by assumption. cbn [lift pbind].
    rewrite (bat_bit_index_get fw (BIA rbits rvalues rx)) by assumption. cbn [lift pbind]. unfold get. cbn [bbits bvalues].
    destruct (getv bits values i) as [c|] eqn:Hc; destruct (getv rbits rvalues i) as [r|] eqn:Hrc; cbn [ovisit].
    + apply spends_then; [|intros t; apply spends_lift]. apply (IH i c Hc r). apply (proj2 Hsr). assumption.
    + rewrite merge_nil_r. apply spends_then; [|intros t; apply spends_lift]. eapply Hlone. eauto.
    + rewrite merge_nil_l. apply spends_then; [|intros t; apply spends_lift]. eapply Hrone. apply (proj2 Hsr i r). assumption.
    + apply spends_ret.
Qed.

End Traverse.

(** * Collision lists *)
Section Next.
Context {E : Env} {Q : Type} {A : Q -> Type} {K V R : Type} (rd : R -> R -> R) (tk : K * V -> list Q).

Lemma en_transform_spends (op : etransform A (K * V) V R) n : tcost tk op -> spends (flat_map tk (m_visit (next_mnode n))) (en_transform rd op n).
Proof.
  intros H. destruct n as [l|s]; cbn [next_mnode m_visit en_transform]; [apply el_transform_spends; assumption|].
  unfold s_visit. cbn [flat_map]. rewrite app_nil_r. apply es_transform_spends. assumption.
Qed.
Lemma en_transmute_spends {S X} (op : etransmute A (K * V) S X R) n : mcost tk op -> spends (flat_map tk (m_visit (next_mnode n))) (en_transmute rd op n).
Proof.
  intros H. destruct n as [l|s]; cbn [next_mnode m_visit en_transmute]; [apply el_transmute_spends; assumption|].
  unfold s_visit. cbn [flat_map]. rewrite app_nil_r. apply es_transmute_spends. assumption.
Qed.

End Next.

Section Take.
Context {E : Env} {Q : Type} {A : Q -> Type} {K V L W : Type} {KK : Key K} {KL : Key L}.
Context (B : K * V -> L * W -> list Q) (Lk : K * V -> list Q).

(** One entry of the left list, looked for among the entries that are left. *)
Lemma take_gives {Y} (pr : Y -> list (L * W)) (k : K) (v : V) rights (hit : L * W -> list (L * W) -> prog A Y) (miss : prog A Y) :
  uniq rights ->
  (forall e rest, keqb k (fst e) = true -> gives (B (k, v) e) (hit e rest) (fun y => pr y = rest)) ->
  gives (Lk (k, v)) miss (fun y => pr y = rights) ->
  gives (one B Lk rights (k, v)) (match take_key k rights with Some (e, rest) => hit e rest | None => miss end)
    (fun y => uniq (pr y) /\ Permutation (pr y) (without (cls k) rights)).
Proof.
  intros HU Hh Hm. unfold one. change (ecls (k, v)) with (cls k). pose proof (take_key_ok k rights HU) as HT.
  destruct (take_key k rights) as [[e rest]|].
  - destruct HT as (-> & H2 & H3 & H4). eapply gives_weak; [apply Hh; assumption|]. intros y ->. auto.
  - rewrite HT. eapply gives_weak; [exact Hm|]. intros y ->. split; [assumption|]. rewrite without_id by assumption. reflexivity.
Qed.

(** The condition carried along the left list. *)
Definition left_over (l : list (K * V)) (rights rest : list (L * W)) : Prop := uniq rest /\ Permutation rest (filter (unmatched l) rights).

Lemma left_over_one k v l rights rest : uniq ((k, v) :: l) -> left_over l rights rest -> one B Lk rest (k, v) = one B Lk rights (k, v).
Proof.
  intros HU [HR HP]. apply uniq_cons in HU. destruct HU as [Hn HU]. unfold one. change (ecls (k, v)) with (cls k).
  rewrite (lookup_perm _ _ _ HR HP), lookup_filter_unmatched by exact Hn. reflexivity.
Qed.
Lemma left_over_next k v l rights rest rest' : left_over l rights rest -> uniq rest' -> Permutation rest' (without (cls k) rest) ->
  left_over ((k, v) :: l) rights rest'.
Proof.
  intros [HR HP] HU HP'. split; [assumption|]. rewrite filter_unmatched_cons, HP'. apply without_perm. assumption.
Qed.
Lemma left_over_start rights : uniq rights -> left_over [] rights rights.
Proof. intros H. split; [assumption|]. replace (filter _ rights) with rights; [reflexivity|]. induction rights; cbn; [reflexivity|]. f_equal. apply IHrights. apply uniq_cons in H. apply H. Qed.

(** One step along the list: the entries below first, then this one. *)
Lemma step_gives {Y Z} (pr : Y -> list (L * W)) (pz : Z -> list (L * W)) k v l rights (p : prog A Y) (q : Y -> prog A Z) T :
  uniq ((k, v) :: l) ->
  gives T p (fun y => left_over l rights (pr y)) ->
  (forall y, uniq (pr y) -> gives (one B Lk (pr y) (k, v)) (q y) (fun z => uniq (pz z) /\ Permutation (pz z) (without (cls k) (pr y)))) ->
  gives (one B Lk rights (k, v) ++ T) (pbind p q) (fun z => left_over ((k, v) :: l) rights (pz z)).
Proof.
  intros HU Hp Hq. eapply gives_perm; [apply Permutation_app_comm|]. eapply gives_bind; [exact Hp|]. cbn beta. intros y Hy.
  rewrite <- (left_over_one k v l rights (pr y) HU Hy). eapply gives_weak; [apply Hq; apply Hy|].
  intros z [H1 H2]. eapply left_over_next; eassumption.
Qed.

End Take.

Lemma gives_pair {Q} {A : Q -> Type} {X Y Z} l (p : prog A X) (g : X -> Y) (pr : Y -> Z) z : spends l p -> (forall x, pr (g x) = z) ->
  gives l (let+ o := p in PRet (g o)) (fun y => pr y = z).
Proof. intros H Hz. apply gives_then; [assumption|]. intros x. apply gives_ret. apply Hz. Qed.

Lemma both_spends {Q} {A : Q -> Type} {I J Y R} (B : I -> J -> list Q) (both : etransform A (I * J) Y R) e e' :
  tcost (fun p => B (fst p) (snd p)) both -> spends (B e e') (etcall both (e, e')).
Proof. intros HB. exact (etcall_spends _ _ (e, e') HB). Qed.

(** ** transform_with_transmuted *)
Section TM.
Context {E : Env} {Q : Type} {A : Q -> Type} {K V L W R : Type} {KK : Key K} {KL : Key L}.
Context (rdef : R) (rd : R -> R -> R).
Context (both : etransform A ((K * V) * (L * W)) V R) (lop : etransform A (K * V) V R) (rop : etransmute A (L * W) K V R).
Context (B : K * V -> L * W -> list Q) (Lk : K * V -> list Q) (Rk : L * W -> list Q).
Context (HB : tcost (fun p => B (fst p) (snd p)) both) (HL : tcost Lk lop) (HR : mcost Rk rop).

Lemma etm_apart_spends a b d : leafy (hashk (next_key a)) (next_mnode a) -> leafy (hashk (next_key b)) (next_mnode b) ->
  hashk (next_key a) <> hashk (next_key b) -> spends (merge B Lk Rk (m_visit (next_mnode a)) (m_visit (next_mnode b))) (etm_apart rd lop rop a b d).
Proof.
  intros Ha Hb Hn. eapply spends_perm; [symmetry; apply merge_disj; apply leafy_disj; assumption|].
  apply spends_bind; [apply en_transform_spends; assumption|]. intros x.
  apply spends_then; [apply en_transmute_spends; assumption|]. intros y. apply spends_lift.
Qed.

Lemma etm_s_impl_spends s e' : spends (merge B Lk Rk (s_visit s) [e']) (etm_s_impl rd both lop rop s e').
Proof.
  eapply spends_perm; [symmetry; apply merge_one|]. unfold etm_s_impl. rewrite keqb_cls. unfold ecls. cbn [fst].
  destruct (ceqb _ _).
  - apply spends_then; [apply both_spends; assumption|]. intros x. apply spends_ret.
  - apply spends_bind; [apply etcall_spends; assumption|]. intros x. apply spends_then; [apply emcall_spends; assumption|]. intros y. apply spends_ret.
Qed.

Lemma etm_l_impl_gives l : forall rights, uniq (l_visit l) -> uniq rights ->
  gives (flat_map (one B Lk rights) (l_visit l)) (etm_l_impl rd both lop rop l rights) (fun x => left_over (l_visit l) rights (snd x)).
Proof.
  assert (HS : forall (this : lnode K V) k v next rights, k = l_key this -> v = l_value this -> uniq rights ->
    gives (one B Lk rights (k, v))
      (let+ (result, rights) :=
         match take_key k rights with
         | Some (e, rights) => let+ o := etcall both ((l_key this, l_value this), e) in PRet (o, rights)
         | None => let+ o := etcall lop (l_key this, l_value this) in PRet (o, rights)
         end in
       PRet (l_transform_result rd this result next, rights)) (fun z => uniq (snd z) /\ Permutation (snd z) (without (cls k) rights))).
  { intros this k v next rights -> -> HU. rewrite <- (app_nil_r (one _ _ _ _)). eapply gives_bind.
    - apply (take_gives B Lk snd (l_key this) (l_value this) rights
        (fun e rest => let+ o := etcall both ((l_key this, l_value this), e) in PRet (o, rest))); [assumption| |].
      + intros e rest _. apply gives_pair; [apply both_spends; assumption|reflexivity].
      + apply gives_pair; [apply etcall_spends; assumption|reflexivity].
    - intros [o rest] H. apply gives_ret. exact H. }
  induction l as [k v n IH z|k v s z]; intros rights HU HR'; cbn [etm_l_impl l_visit flat_map].
  - eapply (step_gives B Lk snd snd); [exact HU| |].
    + apply IH; [|assumption]. cbn [l_visit] in HU. apply uniq_cons in HU. apply HU.
    + intros [next rest] HUr. cbn [snd] in *. apply HS; try reflexivity. assumption.
  - eapply (step_gives B Lk snd snd); [exact HU| |].
    + unfold s_visit. cbn [flat_map]. rewrite app_nil_r. eapply gives_weak.
      * apply (take_gives B Lk snd (s_key s) (s_value s) rights
          (fun e rest => let+ t := etm_s_impl rd both lop rop s e in PRet (t, rest))); [assumption| |].
        { intros e rest He. apply gives_pair; [|reflexivity]. eapply spends_perm; [|apply etm_s_impl_spends].
          unfold s_visit. rewrite merge_one. rewrite keqb_cls in He. unfold ecls. cbn [fst]. rewrite He. reflexivity. }
        { apply gives_pair; [apply es_transform_spends; assumption|reflexivity]. }
      * intros y [H1 H2]. eapply left_over_next; [apply left_over_start; exact HR'|exact H1|exact H2].
    + intros [next rest] HUr. cbn [snd] in *. apply HS; try reflexivity. assumption.
Qed.

Lemma etm_rest_spends l rights : forall next, spends (flat_map Rk rights) (etm_rest rd rop l rights next).
Proof.
  induction rights as [|e rights IH]; intros next; cbn [etm_rest flat_map]; [apply spends_ret|].
  apply spends_bind; [apply emcall_spends; assumption|]. intros x. apply IH.
Qed.

Lemma etm_lnode_spends l r d : leafy (hashk (l_key l)) (ML l) -> leafy (hashk (l_key r)) (ML r) ->
  spends (merge B Lk Rk (l_visit l) (l_visit r)) (etm_lnode rd both lop rop l r d).
Proof.
  intros Hl Hr. unfold etm_lnode. destruct (N.eqb_spec (hashk (l_key l)) (hashk (l_key r))) as [Hh|Hh].
  - apply spends_first. intros rights. rewrite rights_ok. destruct (l_next r); [discriminate|]. intros [= <-].
    eapply gives_spends; [apply etm_l_impl_gives; [exact (leafy_uniq _ (ML l) Hl)|exact (leafy_uniq _ (ML r) Hr)]|]. cbn beta.
    intros [next rest] [_ HP]. cbn [snd] in HP. eapply spends_perm; [apply flat_map_perm; exact HP|]. apply etm_rest_spends.
  - apply (etm_apart_spends (NL l) (NL r) d); assumption.
Qed.

Lemma etm_ls_impl_spends l s : uniq (l_visit l) -> spends (merge B Lk Rk (l_visit l) (s_visit s)) (etm_ls_impl rd both lop rop l s).
Proof.
  assert (Hyes : forall (this : lnode K V) k v nx, k = l_key this -> v = l_value this -> nx = l_next this -> uniq ((k, v) :: m_visit (next_mnode nx)) ->
    keqb k (s_key s) = true ->
    spends (merge B Lk Rk ((k, v) :: m_visit (next_mnode nx)) (s_visit s))
      (let+ next := en_transform rd lop (l_next this) in
       let+ o := etcall both ((l_key this, l_value this), (s_key s, s_value s)) in
       PRet (l_transform_result rd this o next))).
  { intros this k v nx -> -> -> HU Hk. apply uniq_cons in HU. destruct HU as [Hn HU].
    rewrite keqb_cls in Hk. destruct (ceqb_spec (cls (l_key this)) (cls (s_key s))) as [Hc|]; [|discriminate].
    eapply spends_perm; [symmetry; unfold s_visit; apply merge_cons_both; [symmetry; exact Hc|exact Hn|reflexivity]|].
    eapply spends_perm; [apply Permutation_app_comm|]. rewrite merge_nil_r.
    apply spends_bind; [apply en_transform_spends; assumption|]. intros x. apply spends_then; [apply both_spends; assumption|]. intros y. apply spends_ret. }
  assert (Hno : forall (this : lnode K V) k v nx p, k = l_key this -> v = l_value this -> keqb k (s_key s) = false ->
    spends (merge B Lk Rk (m_visit (next_mnode nx)) (s_visit s)) p ->
    spends (merge B Lk Rk ((k, v) :: m_visit (next_mnode nx)) (s_visit s))
      (let+ next := p in let+ o := etcall lop (l_key this, l_value this) in PRet (l_transform_result rd this o next))).
  { intros this k v nx p -> -> Hk Hp. rewrite keqb_cls in Hk.
    eapply spends_perm; [symmetry; apply merge_cons|].
    { apply lookup_none. intros e [<-|[]]. unfold ecls. cbn [fst]. intros Hc. rewrite Hc, ceqb_refl in Hk. discriminate. }
    eapply spends_perm; [apply Permutation_app_comm|]. apply spends_bind; [exact Hp|]. intros x.
    apply spends_then; [apply etcall_spends; assumption|]. intros y. apply spends_ret. }
  induction l as [k v n IH z|k v s' z]; intros HU; cbn [etm_ls_impl l_key].
  - destruct (keqb k (s_key s)) eqn:Hk.
    + apply (Hyes (LNL k v n z) k v (NL n)); try reflexivity; assumption.
    + apply (Hno (LNL k v n z) k v (NL n)); try reflexivity; [assumption|]. apply IH. cbn [l_visit] in HU. apply uniq_cons in HU. apply HU.
  - destruct (keqb k (s_key s)) eqn:Hk.
    + apply (Hyes (LNS k v s' z) k v (NS s')); try reflexivity; assumption.
    + apply (Hno (LNS k v s' z) k v (NS s')); try reflexivity; [assumption|]. apply etm_s_impl_spends.
Qed.

Lemma etm_lsnode_spends l s d : leafy (hashk (l_key l)) (ML l) ->
  spends (merge B Lk Rk (l_visit l) (s_visit s)) (etm_lsnode rd both lop rop l s d).
Proof.
  intros Hl. unfold etm_lsnode. destruct (N.eqb_spec (hashk (l_key l)) (hashk (s_key s))) as [Hh|Hh].
  - apply etm_ls_impl_spends. eapply (leafy_uniq _ (ML l)). exact Hl.
  - apply (etm_apart_spends (NL l) (NS s) d); [assumption|reflexivity|assumption].
Qed.

Lemma etm_snode_spends s s' d : spends (merge B Lk Rk (s_visit s) (s_visit s')) (etm_snode rd both lop rop s s' d).
Proof.
  unfold etm_snode. destruct (N.eqb_spec (hashk (s_key s)) (hashk (s_key s'))) as [Hh|Hh].
  - apply etm_s_impl_spends.
  - apply (etm_apart_spends (NS s) (NS s') d); [reflexivity|reflexivity|assumption].
Qed.

End TM.

(** ** transmute_with_transformed *)
Section MT.
Context {E : Env} {Q : Type} {A : Q -> Type} {K V L W R : Type} {KK : Key K} {KL : Key L}.
Context (rdef : R) (rd : R -> R -> R).
Context (both : etransform A ((K * V) * (L * W)) W R) (lop : etransmute A (K * V) L W R) (rop : etransform A (L * W) W R).
Context (B : K * V -> L * W -> list Q) (Lk : K * V -> list Q) (Rk : L * W -> list Q).
Context (HB : tcost (fun p => B (fst p) (snd p)) both) (HL : mcost Lk lop) (HR : tcost Rk rop).

Lemma emt_apart_spends a b d : leafy (hashk (next_key a)) (next_mnode a) -> leafy (hashk (next_key b)) (next_mnode b) ->
  hashk (next_key a) <> hashk (next_key b) -> spends (merge B Lk Rk (m_visit (next_mnode a)) (m_visit (next_mnode b))) (emt_apart rd lop rop a b d).
Proof.
  intros Ha Hb Hn. eapply spends_perm; [symmetry; apply merge_disj; apply leafy_disj; assumption|].
  apply spends_bind; [apply en_transmute_spends; assumption|]. intros x.
  apply spends_then; [apply en_transform_spends; assumption|]. intros y. apply spends_lift.
Qed.

Lemma emt_s_impl_spends s s' : spends (merge B Lk Rk (s_visit s) (s_visit s')) (emt_s_impl rd both lop rop s s').
Proof.
  eapply spends_perm; [symmetry; apply merge_one|]. unfold emt_s_impl. rewrite keqb_cls. unfold ecls. cbn [fst].
  destruct (ceqb _ _).
  - apply spends_then; [apply both_spends; assumption|]. intros x. apply spends_ret.
  - apply spends_bind; [apply emcall_spends; assumption|]. intros x. apply spends_then; [apply etcall_spends; assumption|]. intros y. apply spends_ret.
Qed.

Lemma emt_ls_impl_spends l s : uniq (l_visit l) -> spends (merge B Lk Rk (l_visit l) (s_visit s)) (emt_ls_impl rd both lop rop l s).
Proof.
  assert (Hyes : forall (this : lnode K V) k v nx, k = l_key this -> v = l_value this -> nx = l_next this -> uniq ((k, v) :: m_visit (next_mnode nx)) ->
    keqb k (s_key s) = true ->
    spends (merge B Lk Rk ((k, v) :: m_visit (next_mnode nx)) (s_visit s))
      (let+ next := en_transmute rd lop (l_next this) in
       let+ o := etcall both ((l_key this, l_value this), (s_key s, s_value s)) in
       PRet (TN (mt_hit rd s o next)))).
  { intros this k v nx -> -> -> HU Hk. apply uniq_cons in HU. destruct HU as [Hn HU].
    rewrite keqb_cls in Hk. destruct (ceqb_spec (cls (l_key this)) (cls (s_key s))) as [Hc|]; [|discriminate].
    eapply spends_perm; [symmetry; unfold s_visit; apply merge_cons_both; [symmetry; exact Hc|exact Hn|reflexivity]|].
    eapply spends_perm; [apply Permutation_app_comm|]. rewrite merge_nil_r.
    apply spends_bind; [apply en_transmute_spends; assumption|]. intros x. apply spends_then; [apply both_spends; assumption|]. intros y. apply spends_ret. }
  assert (Hno : forall (this : lnode K V) k v nx p, k = l_key this -> v = l_value this -> keqb k (s_key s) = false ->
    spends (merge B Lk Rk (m_visit (next_mnode nx)) (s_visit s)) p ->
    spends (merge B Lk Rk ((k, v) :: m_visit (next_mnode nx)) (s_visit s))
      (let+ next := p in let+ o := emcall lop (l_key this, l_value this) in PRet (mt_miss rd s o next))).
  { intros this k v nx p -> -> Hk Hp. rewrite keqb_cls in Hk.
    eapply spends_perm; [symmetry; apply merge_cons|].
    { apply lookup_none. intros e [<-|[]]. unfold ecls. cbn [fst]. intros Hc. rewrite Hc, ceqb_refl in Hk. discriminate. }
    eapply spends_perm; [apply Permutation_app_comm|]. apply spends_bind; [exact Hp|]. intros x.
    apply spends_then; [apply emcall_spends; assumption|]. intros y. apply spends_ret. }
  induction l as [k v n IH z|k v s' z]; intros HU; cbn [emt_ls_impl l_key].
  - destruct (keqb k (s_key s)) eqn:Hk.
    + apply (Hyes (LNL k v n z) k v (NL n)); try reflexivity; assumption.
    + apply (Hno (LNL k v n z) k v (NL n)); try reflexivity; [assumption|]. apply IH. cbn [l_visit] in HU. apply uniq_cons in HU. apply HU.
  - destruct (keqb k (s_key s)) eqn:Hk.
    + apply (Hyes (LNS k v s' z) k v (NS s')); try reflexivity; assumption.
    + apply (Hno (LNS k v s' z) k v (NS s')); try reflexivity; [assumption|]. apply emt_s_impl_spends.
Qed.

Lemma emt_lsnode_spends l s d : leafy (hashk (l_key l)) (ML l) ->
  spends (merge B Lk Rk (l_visit l) (s_visit s)) (emt_lsnode rd both lop rop l s d).
Proof.
  intros Hl. unfold emt_lsnode. destruct (N.eqb_spec (hashk (l_key l)) (hashk (s_key s))) as [Hh|Hh].
  - apply emt_ls_impl_spends. eapply (leafy_uniq _ (ML l)). exact Hl.
  - apply (emt_apart_spends (NL l) (NS s) d); [assumption|reflexivity|assumption].
Qed.

Lemma emt_snode_spends s s' d : spends (merge B Lk Rk (s_visit s) (s_visit s')) (emt_snode rd both lop rop s s' d).
Proof.
  unfold emt_snode. destruct (N.eqb_spec (hashk (s_key s)) (hashk (s_key s'))) as [Hh|Hh].
  - apply emt_s_impl_spends.
  - apply (emt_apart_spends (NS s) (NS s') d); [reflexivity|reflexivity|assumption].
Qed.

End MT.

(** ** transmute_with_transmuted *)
Section MM.
Context {E : Env} {Q : Type} {A : Q -> Type} {K V L W S X R : Type} {KK : Key K} {KL : Key L}.
Context (rdef : R) (rd : R -> R -> R).
Context (both : etransmute A ((K * V) * (L * W)) S X R) (lop : etransmute A (K * V) S X R) (rop : etransmute A (L * W) S X R).
Context (B : K * V -> L * W -> list Q) (Lk : K * V -> list Q) (Rk : L * W -> list Q).
Context (HB : mcost (fun p => B (fst p) (snd p)) both) (HL : mcost Lk lop) (HR : mcost Rk rop).

Lemma mboth_spends e e' : spends (B e e') (emcall both (e, e')).
Proof. exact (emcall_spends _ _ (e, e') HB). Qed.

Lemma emm_apart_spends a b d : leafy (hashk (next_key a)) (next_mnode a) -> leafy (hashk (next_key b)) (next_mnode b) ->
  hashk (next_key a) <> hashk (next_key b) -> spends (merge B Lk Rk (m_visit (next_mnode a)) (m_visit (next_mnode b))) (emm_apart rd lop rop a b d).
Proof.
  intros Ha Hb Hn. eapply spends_perm; [symmetry; apply merge_disj; apply leafy_disj; assumption|].
  apply spends_bind; [apply en_transmute_spends; assumption|]. intros x.
  apply spends_then; [apply en_transmute_spends; assumption|]. intros y. apply spends_lift.
Qed.

Lemma emm_values_spends e e' : spends (merge B Lk Rk [e] [e']) (emm_values rd both lop rop e e').
Proof.
  eapply spends_perm; [symmetry; apply merge_one|]. unfold emm_values. rewrite keqb_cls. unfold ecls. cbn [fst].
  destruct (ceqb _ _).
  - apply spends_then; [apply mboth_spends|]. intros x. apply spends_ret.
  - apply spends_bind; [apply emcall_spends; assumption|]. intros x. apply spends_then; [apply emcall_spends; assumption|]. intros y. apply spends_ret.
Qed.

Lemma emm_l_impl_gives l : forall rights, uniq (l_visit l) -> uniq rights ->
  gives (flat_map (one B Lk rights) (l_visit l)) (emm_l_impl rd both lop rop l rights) (fun x => left_over (l_visit l) rights (snd x)).
Proof.
  assert (HS : forall (this : lnode K V) k v next rights, k = l_key this -> v = l_value this -> uniq rights ->
    gives (one B Lk rights (k, v))
      (let+ (result, rights) :=
         match take_key k rights with
         | Some (e, rights) => let+ o := emcall both ((l_key this, l_value this), e) in PRet (o, rights)
         | None => let+ o := emcall lop (l_key this, l_value this) in PRet (o, rights)
         end in
       PRet (l_transmute_result rd result next, rights)) (fun z => uniq (snd z) /\ Permutation (snd z) (without (cls k) rights))).
  { intros this k v next rights -> -> HU. rewrite <- (app_nil_r (one _ _ _ _)). eapply gives_bind.
    - apply (take_gives B Lk snd (l_key this) (l_value this) rights
        (fun e rest => let+ o := emcall both ((l_key this, l_value this), e) in PRet (o, rest))); [assumption| |].
      + intros e rest _. apply gives_pair; [apply mboth_spends|reflexivity].
      + apply gives_pair; [apply emcall_spends; assumption|reflexivity].
    - intros [o rest] H. apply gives_ret. exact H. }
  induction l as [k v n IH z|k v s z]; intros rights HU HR'; cbn [emm_l_impl l_visit flat_map].
  - eapply (step_gives B Lk snd snd); [exact HU| |].
    + apply IH; [|assumption]. cbn [l_visit] in HU. apply uniq_cons in HU. apply HU.
    + intros [next rest] HUr. cbn [snd] in *. apply HS; try reflexivity. assumption.
  - eapply (step_gives B Lk snd snd); [exact HU| |].
    + unfold s_visit. cbn [flat_map]. rewrite app_nil_r. eapply gives_weak.
      * apply (take_gives B Lk snd (s_key s) (s_value s) rights
          (fun e rest => let+ t := emm_values rd both lop rop (s_key s, s_value s) e in PRet (t, rest))); [assumption| |].
        { intros e rest He. apply gives_pair; [|reflexivity]. eapply spends_perm; [|apply emm_values_spends].
          rewrite merge_one. rewrite keqb_cls in He. unfold ecls. cbn [fst]. rewrite He. reflexivity. }
        { apply gives_pair; [apply es_transmute_spends; assumption|reflexivity]. }
      * intros y [H1 H2]. eapply left_over_next; [apply left_over_start; exact HR'|exact H1|exact H2].
    + intros [next rest] HUr. cbn [snd] in *. apply HS; try reflexivity. assumption.
Qed.

Lemma emm_rest_spends rights : forall next, spends (flat_map Rk rights) (emm_rest rd rop rights next).
Proof.
  induction rights as [|e rights IH]; intros next; cbn [emm_rest flat_map]; [apply spends_ret|].
  apply spends_bind; [apply emcall_spends; assumption|]. intros x. apply IH.
Qed.

Lemma emm_lnode_spends l r d : leafy (hashk (l_key l)) (ML l) -> leafy (hashk (l_key r)) (ML r) ->
  spends (merge B Lk Rk (l_visit l) (l_visit r)) (emm_lnode rd both lop rop l r d).
Proof.
  intros Hl Hr. unfold emm_lnode. destruct (N.eqb_spec (hashk (l_key l)) (hashk (l_key r))) as [Hh|Hh].
  - apply spends_first. intros rights. rewrite rights_ok. destruct (l_next r); [discriminate|]. intros [= <-].
    eapply gives_spends; [apply emm_l_impl_gives; [exact (leafy_uniq _ (ML l) Hl)|exact (leafy_uniq _ (ML r) Hr)]|]. cbn beta.
    intros [next rest] [_ HP]. cbn [snd] in HP. eapply spends_perm; [apply flat_map_perm; exact HP|]. apply emm_rest_spends.
  - apply (emm_apart_spends (NL l) (NL r) d); assumption.
Qed.

Lemma emm_ls_impl_spends l s : uniq (l_visit l) -> spends (merge B Lk Rk (l_visit l) (s_visit s)) (emm_ls_impl rd both lop rop l s).
Proof.
  assert (Hyes : forall (this : lnode K V) k v nx, k = l_key this -> v = l_value this -> nx = l_next this -> uniq ((k, v) :: m_visit (next_mnode nx)) ->
    keqb k (s_key s) = true ->
    spends (merge B Lk Rk ((k, v) :: m_visit (next_mnode nx)) (s_visit s))
      (let+ next := en_transmute rd lop (l_next this) in
       let+ o := emcall both ((l_key this, l_value this), (s_key s, s_value s)) in
       PRet (l_transmute_result rd o next))).
  { intros this k v nx -> -> -> HU Hk. apply uniq_cons in HU. destruct HU as [Hn HU].
    rewrite keqb_cls in Hk. destruct (ceqb_spec (cls (l_key this)) (cls (s_key s))) as [Hc|]; [|discriminate].
    eapply spends_perm; [symmetry; unfold s_visit; apply merge_cons_both; [symmetry; exact Hc|exact Hn|reflexivity]|].
    eapply spends_perm; [apply Permutation_app_comm|]. rewrite merge_nil_r.
    apply spends_bind; [apply en_transmute_spends; assumption|]. intros x. apply spends_then; [apply mboth_spends|]. intros y. apply spends_ret. }
  assert (Hno : forall (this : lnode K V) k v nx p, k = l_key this -> v = l_value this -> keqb k (s_key s) = false ->
    spends (merge B Lk Rk (m_visit (next_mnode nx)) (s_visit s)) p ->
    spends (merge B Lk Rk ((k, v) :: m_visit (next_mnode nx)) (s_visit s))
      (let+ next := p in let+ o := emcall lop (l_key this, l_value this) in PRet (l_transmute_result rd o next))).
  { intros this k v nx p -> -> Hk Hp. rewrite keqb_cls in Hk.
    eapply spends_perm; [symmetry; apply merge_cons|].
    { apply lookup_none. intros e [<-|[]]. unfold ecls. cbn [fst]. intros Hc. rewrite Hc, ceqb_refl in Hk. discriminate. }
    eapply spends_perm; [apply Permutation_app_comm|]. apply spends_bind; [exact Hp|]. intros x.
    apply spends_then; [apply emcall_spends; assumption|]. intros y. apply spends_ret. }
  induction l as [k v n IH z|k v s' z]; intros HU; cbn [emm_ls_impl l_key].
  - destruct (keqb k (s_key s)) eqn:Hk.
    + apply (Hyes (LNL k v n z) k v (NL n)); try reflexivity; assumption.
    + apply (Hno (LNL k v n z) k v (NL n)); try reflexivity; [assumption|]. apply IH. cbn [l_visit] in HU. apply uniq_cons in HU. apply HU.
  - destruct (keqb k (s_key s)) eqn:Hk.
    + apply (Hyes (LNS k v s' z) k v (NS s')); try reflexivity; assumption.
    + apply (Hno (LNS k v s' z) k v (NS s')); try reflexivity; [assumption|]. apply emm_values_spends.
Qed.

Lemma emm_lsnode_spends l s d : leafy (hashk (l_key l)) (ML l) ->
  spends (merge B Lk Rk (l_visit l) (s_visit s)) (emm_lsnode rd both lop rop l s d).
Proof.
  intros Hl. unfold emm_lsnode. destruct (N.eqb_spec (hashk (l_key l)) (hashk (s_key s))) as [Hh|Hh].
  - apply emm_ls_impl_spends. eapply (leafy_uniq _ (ML l)). exact Hl.
  - apply (emm_apart_spends (NL l) (NS s) d); [assumption|reflexivity|assumption].
Qed.

Lemma emm_snode_spends s s' d : spends (merge B Lk Rk (s_visit s) (s_visit s')) (emm_snode rd both lop rop s s' d).
Proof.
  unfold emm_snode. destruct (N.eqb_spec (hashk (s_key s)) (hashk (s_key s'))) as [Hh|Hh].
  - apply emm_values_spends.
  - apply (emm_apart_spends (NS s) (NS s') d); [reflexivity|reflexivity|assumption].
Qed.

End MM.

(** ** transform_with_transformed *)
Section TT.
Context {E : Env} {Q : Type} {A : Q -> Type} {K V R : Type} {KK : Key K}.
Context (rdef : R) (rd : R -> R -> R).
Context (both : ejoint A (K * V) V R) (lop : etransform A (K * V) V R) (rop : etransform A (K * V) V R).
Context (B : K * V -> K * V -> list Q) (Lk : K * V -> list Q) (Rk : K * V -> list Q).
Context (HB : jcost B both) (HL : tcost Lk lop) (HR : tcost Rk rop).

Lemma jboth_spends e e' : spends (B e e') (ejcall both e e').
Proof. exact (ejcall_spends _ _ e e' HB). Qed.

Lemma ett_apart_spends a b d : leafy (hashk (next_key a)) (next_mnode a) -> leafy (hashk (next_key b)) (next_mnode b) ->
  hashk (next_key a) <> hashk (next_key b) -> spends (merge B Lk Rk (m_visit (next_mnode a)) (m_visit (next_mnode b))) (ett_apart rd lop rop a b d).
Proof.
  intros Ha Hb Hn. eapply spends_perm; [symmetry; apply merge_disj; apply leafy_disj; assumption|].
  apply spends_bind; [apply en_transform_spends; assumption|]. intros x.
  apply spends_then; [apply en_transform_spends; assumption|]. intros y. apply spends_lift.
Qed.

Lemma ett_s_impl_spends s s' : spends (merge B Lk Rk (s_visit s) (s_visit s')) (ett_s_impl rd both lop rop s s').
Proof.
  eapply spends_perm; [symmetry; apply merge_one|]. unfold ett_s_impl. rewrite keqb_cls. unfold ecls. cbn [fst].
  destruct (ceqb _ _).
  - apply spends_then; [apply jboth_spends|]. intros x. apply spends_ret.
  - apply spends_bind; [apply etcall_spends; assumption|]. intros x. apply spends_then; [apply etcall_spends; assumption|]. intros y. apply spends_ret.
Qed.

Lemma ett_l_impl_gives l : forall rights, uniq (l_visit l) -> uniq rights ->
  gives (flat_map (one B Lk rights) (l_visit l)) (ett_l_impl rd both lop rop l rights) (fun x => left_over (l_visit l) rights (snd x)).
Proof.
  assert (HS : forall (this : lnode K V) k v that next rights, k = l_key this -> v = l_value this -> uniq rights ->
    gives (one B Lk rights (k, v))
      (let+ (result, rights) :=
         match take_key k rights with
         | Some (e, rights) => let+ o := ejcall both (l_key this, l_value this) e in PRet (o, rights)
         | None => let+ o := etcall lop (l_key this, l_value this) in PRet (v_left o, rights)
         end in
       let+ t := lift (jj rd this result that next) in PRet (t, rights)) (fun z => uniq (snd z) /\ Permutation (snd z) (without (cls k) rights))).
  { intros this k v that next rights -> -> HU. rewrite <- (app_nil_r (one _ _ _ _)). eapply gives_bind.
    - apply (take_gives B Lk snd (l_key this) (l_value this) rights
        (fun e rest => let+ o := ejcall both (l_key this, l_value this) e in PRet (o, rest))); [assumption| |].
      + intros e rest _. apply gives_pair; [apply jboth_spends|reflexivity].
      + apply (gives_pair (Lk _) _ (fun o => (v_left o, rights))); [apply etcall_spends; assumption|reflexivity].
    - intros [o rest] H. apply uses_bind. apply uses_lift. intros t _. apply gives_ret. exact H. }
  induction l as [k v n IH z|k v s z]; intros rights HU HR'; cbn [ett_l_impl l_visit flat_map].
  - eapply (step_gives B Lk (fun y => snd (fst y)) snd); [exact HU| |].
    + rewrite <- (app_nil_r (flat_map _ _)). eapply gives_bind.
      * apply IH; [|assumption]. cbn [l_visit] in HU. apply uniq_cons in HU. apply HU.
      * intros y Hy. apply gives_ret. exact Hy.
    + intros [[next rest] that] HUr. cbn [fst snd] in *. apply HS; try reflexivity. assumption.
  - eapply (step_gives B Lk (fun y => snd (fst y)) snd); [exact HU| |].
    + unfold s_visit. cbn [flat_map]. rewrite app_nil_r. eapply gives_weak.
      * apply (take_gives B Lk (fun y => snd (fst y)) (s_key s) (s_value s) rights
          (fun e rest => let+ t := ett_s_impl rd both lop rop s (SN (fst e) (snd e)) in PRet ((t, rest), Some e))); [assumption| |].
        { intros [ek ev] rest He. apply (gives_pair (B _ _) _ (fun t => ((t, rest), Some (ek, ev)))); [|reflexivity]. eapply spends_perm; [|apply ett_s_impl_spends].
          unfold s_visit. rewrite merge_one. rewrite keqb_cls in He. unfold ecls. cbn [fst snd s_key s_value] in *. rewrite He. reflexivity. }
        { apply (gives_pair (Lk _) _ (fun t => ((t_left t, rights), None))); [apply es_transform_spends; assumption|reflexivity]. }
      * intros y [H1 H2]. eapply left_over_next; [apply left_over_start; exact HR'|exact H1|exact H2].
    + intros [[next rest] that] HUr. cbn [fst snd] in *. apply HS; try reflexivity. assumption.
Qed.

Lemma ett_rest_spends l rights : forall next, spends (flat_map Rk rights) (ett_rest rd rop l rights next).
Proof.
  induction rights as [|e rights IH]; intros next; cbn [ett_rest flat_map]; [apply spends_ret|].
  apply spends_bind; [apply etcall_spends; assumption|]. intros x. apply spends_first. intros y _. apply IH.
Qed.

Lemma ett_lnode_spends l r d : leafy (hashk (l_key l)) (ML l) -> leafy (hashk (l_key r)) (ML r) ->
  spends (merge B Lk Rk (l_visit l) (l_visit r)) (ett_lnode rd both lop rop l r d).
Proof.
  intros Hl Hr. unfold ett_lnode. destruct (N.eqb_spec (hashk (l_key l)) (hashk (l_key r))) as [Hh|Hh].
  - apply spends_first. intros rights. rewrite rights_ok. destruct (l_next r); [discriminate|]. intros [= <-].
    eapply gives_spends; [apply ett_l_impl_gives; [exact (leafy_uniq _ (ML l) Hl)|exact (leafy_uniq _ (ML r) Hr)]|]. cbn beta.
    intros [next rest] [_ HP]. cbn [snd] in HP. eapply spends_perm; [apply flat_map_perm; exact HP|]. apply ett_rest_spends.
  - apply (ett_apart_spends (NL l) (NL r) d); assumption.
Qed.

Lemma ett_ls_impl_spends l s : uniq (l_visit l) -> spends (merge B Lk Rk (l_visit l) (s_visit s)) (ett_ls_impl rd both lop rop l s).
Proof.
  assert (Hyes : forall (this : lnode K V) k v nx, k = l_key this -> v = l_value this -> nx = l_next this -> uniq ((k, v) :: m_visit (next_mnode nx)) ->
    keqb k (s_key s) = true ->
    spends (merge B Lk Rk ((k, v) :: m_visit (next_mnode nx)) (s_visit s))
      (let+ next := en_transform rd lop (l_next this) in
       let+ o := ejcall both (l_key this, l_value this) (s_key s, s_value s) in
       PRet (jt rd this o s next))).
  { intros this k v nx -> -> -> HU Hk. apply uniq_cons in HU. destruct HU as [Hn HU].
    rewrite keqb_cls in Hk. destruct (ceqb_spec (cls (l_key this)) (cls (s_key s))) as [Hc|]; [|discriminate].
    eapply spends_perm; [symmetry; unfold s_visit; apply merge_cons_both; [symmetry; exact Hc|exact Hn|reflexivity]|].
    eapply spends_perm; [apply Permutation_app_comm|]. rewrite merge_nil_r.
    apply spends_bind; [apply en_transform_spends; assumption|]. intros x. apply spends_then; [apply jboth_spends|]. intros y. apply spends_ret. }
  assert (Hno : forall (this : lnode K V) k v nx p, k = l_key this -> v = l_value this -> keqb k (s_key s) = false ->
    spends (merge B Lk Rk (m_visit (next_mnode nx)) (s_visit s)) p ->
    spends (merge B Lk Rk ((k, v) :: m_visit (next_mnode nx)) (s_visit s))
      (let+ next := p in let+ o := etcall lop (l_key this, l_value this) in PRet (tj rd this o s next))).
  { intros this k v nx p -> -> Hk Hp. rewrite keqb_cls in Hk.
    eapply spends_perm; [symmetry; apply merge_cons|].
    { apply lookup_none. intros e [<-|[]]. unfold ecls. cbn [fst]. intros Hc. rewrite Hc, ceqb_refl in Hk. discriminate. }
    eapply spends_perm; [apply Permutation_app_comm|]. apply spends_bind; [exact Hp|]. intros x.
    apply spends_then; [apply etcall_spends; assumption|]. intros y. apply spends_ret. }
  induction l as [k v n IH z|k v s' z]; intros HU; cbn [ett_ls_impl l_key].
  - destruct (keqb k (s_key s)) eqn:Hk.
    + apply (Hyes (LNL k v n z) k v (NL n)); try reflexivity; assumption.
    + apply (Hno (LNL k v n z) k v (NL n)); try reflexivity; [assumption|]. apply IH. cbn [l_visit] in HU. apply uniq_cons in HU. apply HU.
  - destruct (keqb k (s_key s)) eqn:Hk.
    + apply (Hyes (LNS k v s' z) k v (NS s')); try reflexivity; assumption.
    + apply (Hno (LNS k v s' z) k v (NS s')); try reflexivity; [assumption|]. apply ett_s_impl_spends.
Qed.

Lemma ett_lsnode_spends l s d : leafy (hashk (l_key l)) (ML l) ->
  spends (merge B Lk Rk (l_visit l) (s_visit s)) (ett_lsnode rd both lop rop l s d).
Proof.
  intros Hl. unfold ett_lsnode. destruct (N.eqb_spec (hashk (l_key l)) (hashk (s_key s))) as [Hh|Hh].
  - apply ett_ls_impl_spends. eapply (leafy_uniq _ (ML l)). exact Hl.
  - apply (ett_apart_spends (NL l) (NS s) d); [assumption|reflexivity|assumption].
Qed.

Lemma ett_snode_spends s s' d : spends (merge B Lk Rk (s_visit s) (s_visit s')) (ett_snode rd both lop rop s s' d).
Proof.
  unfold ett_snode. destruct (N.eqb_spec (hashk (s_key s)) (hashk (s_key s'))) as [Hh|Hh].
  - apply ett_s_impl_spends.
  - apply (ett_apart_spends (NS s) (NS s') d); [reflexivity|reflexivity|assumption].
Qed.

End TT.

(** * The families *)
Section Flips.
Context {Q : Type} {A : Q -> Type} {I J Y R : Type}.
Context (B : I -> J -> list Q).

Lemma tcost_flipped (op : etransform A (I * J) Y R) : tcost (fun p => B (fst p) (snd p)) op ->
  tcost (fun p : J * I => (fun b a => B a b) (fst p) (snd p)) (etflip op).
Proof. intros H. exact (tcost_flip _ _ H). Qed.
Lemma mcost_flipped {X} (op : etransmute A (I * J) Y X R) : mcost (fun p => B (fst p) (snd p)) op ->
  mcost (fun p : J * I => (fun b a => B a b) (fst p) (snd p)) (emflip op).
Proof. intros H. exact (mcost_flip _ _ H). Qed.

End Flips.

Section Families.
Context {E : Env} {Q : Type} {A : Q -> Type} {R : Type} (rdef : R) (rd : R -> R -> R) (st : strategy).

Section TMMT.
Context {K V L W : Type} {KK : Key K} {KL : Key L}.
Context (B : K * V -> L * W -> list Q) (Lk : K * V -> list Q) (Rk : L * W -> list Q).

Lemma etm_leaf_spends both lop rop (HB : tcost (fun p => B (fst p) (snd p)) both) (HL : tcost Lk lop) (HR : mcost Rk rop) a b d :
  leafy (hashk (next_key a)) (next_mnode a) -> leafy (hashk (next_key b)) (next_mnode b) ->
  jspends (A := A) B Lk Rk (next_mnode a) (next_mnode b) (etm_leaf rd both lop rop a b d).
Proof.
  intros Ha Hb. unfold jspends. destruct a as [l|s], b as [r|s']; cbn [next_mnode m_visit etm_leaf next_key] in *.
  - apply etm_lnode_spends; assumption.
  - apply etm_lsnode_spends; assumption.
  - eapply spends_perm; [symmetry; apply merge_flip; [apply (leafy_uniq _ _ Ha)|apply (leafy_uniq _ (ML r) Hb)]|].
    apply emt_lsnode_spends; [apply tcost_flipped| | |]; assumption.
  - apply etm_snode_spends; assumption.
Qed.

Lemma emt_leaf_spends both lop rop (HB : tcost (fun p => B (fst p) (snd p)) both) (HL : mcost Lk lop) (HR : tcost Rk rop) a b d :
  leafy (hashk (next_key a)) (next_mnode a) -> leafy (hashk (next_key b)) (next_mnode b) ->
  jspends (A := A) B Lk Rk (next_mnode a) (next_mnode b) (emt_leaf rd both lop rop a b d).
Proof.
  intros Ha Hb. unfold jspends. destruct a as [l|s], b as [r|s']; cbn [next_mnode m_visit emt_leaf next_key] in *.
  - eapply spends_perm; [symmetry; apply merge_flip; [apply (leafy_uniq _ (ML l) Ha)|apply (leafy_uniq _ (ML r) Hb)]|].
    apply etm_lnode_spends; [apply tcost_flipped| | | |]; assumption.
  - apply emt_lsnode_spends; assumption.
  - eapply spends_perm; [symmetry; apply merge_flip; [apply (leafy_uniq _ _ Ha)|apply (leafy_uniq _ (ML r) Hb)]|].
    apply etm_lsnode_spends; [apply tcost_flipped| | |]; assumption.
  - apply emt_snode_spends; assumption.
Qed.

Lemma emm_leaf_spends {S X} (both : etransmute A ((K * V) * (L * W)) S X R) lop rop
  (HB : mcost (fun p => B (fst p) (snd p)) both) (HL : mcost Lk lop) (HR : mcost Rk rop) a b d :
  leafy (hashk (next_key a)) (next_mnode a) -> leafy (hashk (next_key b)) (next_mnode b) ->
  jspends B Lk Rk (next_mnode a) (next_mnode b) (emm_leaf rd both lop rop a b d).
Proof.
  intros Ha Hb. unfold jspends. destruct a as [l|s], b as [r|s']; cbn [next_mnode m_visit emm_leaf next_key] in *.
  - apply emm_lnode_spends; assumption.
  - apply emm_lsnode_spends; assumption.
  - eapply spends_perm; [symmetry; apply merge_flip; [apply (leafy_uniq _ _ Ha)|apply (leafy_uniq _ (ML r) Hb)]|].
    apply emm_lsnode_spends; [apply mcost_flipped| | |]; assumption.
  - apply emm_snode_spends; assumption.
Qed.

Lemma etm_tree_leaf_spends both lop rop (HB : tcost (fun p => B (fst p) (snd p)) both) (HL : tcost Lk lop) (HR : mcost Rk rop) d p n right :
  wf d p n -> wf d p (next_mnode right) -> jspends (A := A) B Lk Rk n (next_mnode right) (etm_tree_leaf rdef rd st both lop rop right n d).
Proof.
  intros HW HWr. eapply (em_leaf_spends rdef rd B Lk Rk); [| | |exact HW|exact HWr]; clear HW HWr.
  - intros d' p' m HW. eapply em_transform_spends; eassumption.
  - intros d' p' m HW. apply spends_then; [eapply em_transmute_spends; eassumption|]. intros x. apply spends_ret.
  - intros. apply etm_leaf_spends; assumption.
Qed.
Lemma emt_tree_leaf_spends both lop rop (HB : tcost (fun p => B (fst p) (snd p)) both) (HL : mcost Lk lop) (HR : tcost Rk rop) d p n right :
  wf d p n -> wf d p (next_mnode right) -> jspends (A := A) B Lk Rk n (next_mnode right) (emt_tree_leaf rdef rd st both lop rop right n d).
Proof.
  intros HW HWr. eapply (em_leaf_spends rdef rd B Lk Rk); [| | |exact HW|exact HWr]; clear HW HWr.
  - intros d' p' m HW. apply spends_then; [eapply em_transmute_spends; eassumption|]. intros x. apply spends_ret.
  - intros d' p' m HW. eapply em_transform_spends; eassumption.
  - intros. apply emt_leaf_spends; assumption.
Qed.
Lemma emm_tree_leaf_spends {S X} (both : etransmute A ((K * V) * (L * W)) S X R) lop rop
  (HB : mcost (fun p => B (fst p) (snd p)) both) (HL : mcost Lk lop) (HR : mcost Rk rop) d p n right :
  wf d p n -> wf d p (next_mnode right) -> jspends B Lk Rk n (next_mnode right) (emm_tree_leaf rdef rd both lop rop right n d).
Proof.
  intros HW HWr. eapply (em_leaf_spends rdef rd B Lk Rk); [| | |exact HW|exact HWr]; clear HW HWr.
  - intros d' p' m HW. eapply em_transmute_spends; eassumption.
  - intros d' p' m HW. eapply em_transmute_spends; eassumption.
  - intros. apply emm_leaf_spends; assumption.
Qed.

End TMMT.

Section Maps.
Context {K V L W : Type} {KK : Key K} {KL : Key L}.
Context (B : K * V -> L * W -> list Q) (Lk : K * V -> list Q) (Rk : L * W -> list Q).

Lemma emap_tm_spends both lop rop (HB : tcost (fun p => B (fst p) (snd p)) both) (HL : tcost Lk lop) (HR : mcost Rk rop) m r :
  mwf m -> mwf r -> spends (A := A) (merge B Lk Rk (map_visit m) (map_visit r)) (emap_tm rdef rd st both lop rop m r).
Proof.
  intros Hm Hr. apply spends_then; [|intros x; apply spends_ret].
  eapply (em_joint_spends rdef rd B Lk Rk); [| | | | | |exact Hm|exact Hr].
  - intros d' p' n HW. eapply em_transform_spends; eassumption.
  - intros d' p' n HW. apply spends_then; [eapply em_transmute_spends; eassumption|]. intros x. apply spends_ret.
  - intros. apply etm_leaf_spends; assumption.
  - intros. eapply etm_tree_leaf_spends; eassumption.
  - intros d p n right Hn Hrt. unfold jspends. eapply spends_perm; [symmetry; apply merge_flip; eapply wf_uniq; eassumption|].
    eapply emt_tree_leaf_spends; try eassumption. apply tcost_flipped. assumption.
  - discriminate.
Qed.
Lemma emap_mt_spends both lop rop (HB : tcost (fun p => B (fst p) (snd p)) both) (HL : mcost Lk lop) (HR : tcost Rk rop) m r :
  mwf m -> mwf r -> spends (A := A) (merge B Lk Rk (map_visit m) (map_visit r)) (emap_mt rdef rd st both lop rop m r).
Proof.
  intros Hm Hr. apply spends_then; [|intros x; apply spends_ret].
  eapply (em_joint_spends rdef rd B Lk Rk); [| | | | | |exact Hm|exact Hr].
  - intros d' p' n HW. apply spends_then; [eapply em_transmute_spends; eassumption|]. intros x. apply spends_ret.
  - intros d' p' n HW. eapply em_transform_spends; eassumption.
  - intros. apply emt_leaf_spends; assumption.
  - intros. eapply emt_tree_leaf_spends; eassumption.
  - intros d p n right Hn Hrt. unfold jspends. eapply spends_perm; [symmetry; apply merge_flip; eapply wf_uniq; eassumption|].
    eapply etm_tree_leaf_spends; try eassumption. apply tcost_flipped. assumption.
  - discriminate.
Qed.
Lemma emap_mm_spends {S X} {KS : Key S} (both : etransmute A ((K * V) * (L * W)) S X R) lop rop
  (HB : mcost (fun p => B (fst p) (snd p)) both) (HL : mcost Lk lop) (HR : mcost Rk rop) m r :
  mwf m -> mwf r -> spends (merge B Lk Rk (map_visit m) (map_visit r)) (emap_mm rdef rd both lop rop m r).
Proof.
  intros Hm Hr. apply spends_then; [|intros x; apply spends_ret].
  eapply (em_joint_spends rdef rd B Lk Rk); [| | | | | |exact Hm|exact Hr].
  - intros d' p' n HW. eapply em_transmute_spends; eassumption.
  - intros d' p' n HW. eapply em_transmute_spends; eassumption.
  - intros. apply emm_leaf_spends; assumption.
  - intros. eapply emm_tree_leaf_spends; eassumption.
  - intros d p n right Hn Hrt. unfold jspends. eapply spends_perm; [symmetry; apply merge_flip; eapply wf_uniq; eassumption|].
    eapply emm_tree_leaf_spends; try eassumption. apply mcost_flipped. assumption.
  - discriminate.
Qed.

End Maps.

Section TTMap.
Context {K V : Type} {KK : Key K}.

Lemma ett_leaf_spends B Lk Rk both lop rop (HB : jcost B both) (HL : tcost Lk lop) (HR : tcost Rk rop) (a b : lnext K V) d :
  leafy (hashk (next_key a)) (next_mnode a) -> leafy (hashk (next_key b)) (next_mnode b) ->
  jspends (A := A) B Lk Rk (next_mnode a) (next_mnode b) (ett_leaf rd both lop rop a b d).
Proof.
  intros Ha Hb. unfold jspends. destruct a as [l|s], b as [r|s']; cbn [next_mnode m_visit ett_leaf next_key] in *.
  - apply ett_lnode_spends; assumption.
  - apply ett_lsnode_spends; assumption.
  - eapply spends_perm; [symmetry; apply merge_flip; [apply (leafy_uniq _ _ Ha)|apply (leafy_uniq _ (ML r) Hb)]|].
    apply spends_then; [|intros x; apply spends_ret]. apply ett_lsnode_spends; [apply (jcost_flip _ _ HB)| | |]; assumption.
  - apply ett_snode_spends; assumption.
Qed.
Lemma ett_tree_leaf_spends B Lk Rk both lop rop (HB : jcost B both) (HL : tcost Lk lop) (HR : tcost Rk rop) d p (n : mnode K V) right :
  wf d p n -> wf d p (next_mnode right) -> jspends (A := A) B Lk Rk n (next_mnode right) (ett_tree_leaf rdef rd st both lop rop right n d).
Proof.
  intros HW HWr. eapply (em_leaf_spends rdef rd B Lk Rk); [| | |exact HW|exact HWr]; clear HW HWr.
  - intros d' p' m HW. apply spends_then; [eapply em_transform_spends; eassumption|]. intros x. apply spends_ret.
  - intros d' p' m HW. apply spends_then; [eapply em_transform_spends; eassumption|]. intros x. apply spends_ret.
  - intros. apply ett_leaf_spends; assumption.
Qed.
Lemma emap_tt_spends B Lk Rk both lop rop (HB : jcost B both) (HL : tcost Lk lop) (HR : tcost Rk rop) (m r : trie K V) :
  mwf m -> mwf r -> spends (A := A) (merge B Lk Rk (map_visit m) (map_visit r)) (emap_tt rdef rd st both lop rop m r).
Proof.
  intros Hm Hr. apply spends_then; [|intros x; apply spends_ret].
  eapply (em_joint_spends rdef rd B Lk Rk); [| | | | | |exact Hm|exact Hr].
  - intros d' p' n HW. apply spends_then; [eapply em_transform_spends; eassumption|]. intros x. apply spends_ret.
  - intros d' p' n HW. apply spends_then; [eapply em_transform_spends; eassumption|]. intros x. apply spends_ret.
  - intros. apply ett_leaf_spends; assumption.
  - intros. eapply ett_tree_leaf_spends; eassumption.
  - intros d p n right Hn Hrt. unfold jspends. eapply spends_perm; [symmetry; apply merge_flip; eapply wf_uniq; eassumption|].
    apply spends_then; [|intros x; apply spends_ret]. eapply (ett_tree_leaf_spends (fun b a => B a b)); try eassumption. apply jcost_flip. assumption.
  - intros t. unfold ett_short. destruct both, lop, rop; try discriminate; intros _; cbn in HB, HL, HR; auto.
Qed.

End TTMap.
End Families.
