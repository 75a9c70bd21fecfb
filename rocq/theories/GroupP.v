(** The order of visit among entries of equal hash. *)
From Coq Require Import NArith Arith List Bool Lia ZifyBool ZifyN ZifyNat Permutation Sorted.
From Verif Require Import Base Words WordsP Flag FlagP Bia BiaP Node Spec SpecP Inv NodeP InsertP TrieP Api ApiP Trans Transform Joint JointT Reach ReachP
  Profile Hist SpecOrder Lean LeanP Sides SidesP ShapeP OrderP.
Import ListNotations.
Open Scope N_scope.

Section Group.
Context {E : Env} {K V : Type} {KK : Key K}.

(** Equal up to the order of entries of different hashes. *)
Lemma group_app h (l l' : list (K * V)) : group h (l ++ l') = group h l ++ group h l'.
Proof. apply filter_app. Qed.
Lemma group_cons h e (l : list (K * V)) : group h (e :: l) = if hash (ecls e) =? h then e :: group h l else group h l.
Proof. reflexivity. Qed.
Lemma group_in h (l : list (K * V)) e : In e (group h l) <-> In e l /\ hash (ecls e) = h.
Proof. unfold group. rewrite filter_In, N.eqb_eq. reflexivity. Qed.
Lemma group_none h (l : list (K * V)) : (forall e, In e l -> hash (ecls e) <> h) -> group h l = [].
Proof.
  intros H. destruct (group h l) as [|e t] eqn:Hg; [reflexivity|]. exfalso. assert (He : In e (group h l)) by (rewrite Hg; left; reflexivity).
  apply group_in in He. exact (H e (proj1 He) (proj2 He)).
Qed.
Lemma group_all h (l : list (K * V)) : (forall e, In e l -> hash (ecls e) = h) -> group h l = l.
Proof.
  induction l as [|a l IH]; intros H; [reflexivity|]. rewrite group_cons. rewrite (proj2 (N.eqb_eq _ _) (H a (or_introl eq_refl))).
  rewrite IH; [reflexivity|]. intros e He. apply H. right. exact He.
Qed.
Lemma group_without h c (l : list (K * V)) : group h (without c l) = without c (group h l).
Proof.
  induction l as [|a l IH]; [reflexivity|]. rewrite without_cons, group_cons.
  destruct (ceqb (ecls a) c) eqn:Hc; destruct (hash (ecls a) =? h) eqn:Hh; rewrite ?group_cons, ?without_cons, ?Hc, ?Hh, IH; reflexivity.
Qed.
Lemma without_other h c (l : list (K * V)) : hash c <> h -> without c (group h l) = group h l.
Proof.
  intros Hne. apply without_id. destruct (lookup c (group h l)) as [e|] eqn:Hl; [|reflexivity]. apply lookup_in in Hl. destruct Hl as [Hi Hc].
  apply group_in in Hi. exfalso. apply Hne. rewrite <- Hc. apply Hi.
Qed.

Definition alike (l l' : list (K * V)) : Prop := forall h, group h l = group h l'.

Lemma group_C d p bits (values : list (mnode K V)) x h : wf d p (MC (BIA bits values x)) ->
  group h (m_visit (MC (BIA bits values x))) = group h (ovisit (getv bits values (idx d h))).
Proof.
  intros HW. destruct (wf_C_inv _ _ _ _ _ HW) as [Hok _]. rewrite (visit_C _ _ _ _ Hok).
  rewrite (range_app 0 (idx d h) (max_ones fw)) by (pose proof (idx_lt d h); lia). rewrite (range_cons (idx d h)) by apply idx_lt.
  assert (Hz : forall js, (forall j, In j js -> j <> idx d h) -> group h (flat_map (fun i => ovisit (getv bits values i)) js) = []).
  { intros js Hj. apply group_none. intros e He. apply in_flat_map in He. destruct He as (j & Hi & He).
    destruct (getv bits values j) as [c|] eqn:Hg; [|destruct He]. intros Hh. apply (Hj j Hi). rewrite <- Hh. symmetry. exact (wf_C_idx _ _ _ _ _ _ _ _ HW Hg He). }
  rewrite flat_map_app. cbn [flat_map]. rewrite !group_app, !Hz; [rewrite app_nil_r; reflexivity| |]; intros j Hj; apply range_in in Hj; lia.
Qed.

(** A change in one slot. *)
Lemma slot_front d p bits (values : list (mnode K V)) x b' k v o : wf d p (MC (BIA bits values x)) -> wf d p (MC b') ->
  (forall j, get b' j = if idx d (hashk k) =? j then o else getv bits values j) ->
  alike (ovisit o) ((k, v) :: without (cls k) (ovisit (getv bits values (idx d (hashk k))))) ->
  alike (m_visit (MC b')) ((k, v) :: without (cls k) (m_visit (MC (BIA bits values x)))).
Proof.
  intros HW HW' Hg HA h. destruct b' as [bits' values' x']. rewrite (group_C _ _ _ _ _ _ HW'). specialize (HA h). unfold get in Hg. cbn [bbits bvalues] in Hg.
  rewrite Hg, group_cons, group_without, (group_C _ _ _ _ _ _ HW). rewrite group_cons, group_without in HA. change (hash (ecls (k, v))) with (hashk k) in *.
  destruct (N.eqb_spec (hashk k) h) as [He|Hh]; [subst h; rewrite N.eqb_refl; exact HA|]. destruct (N.eqb_spec (idx d (hashk k)) (idx d h)) as [<-|Hi]; [exact HA|].
  rewrite without_other by exact Hh. reflexivity.
Qed.
Lemma slot_without d p bits (values : list (mnode K V)) x b' c o : wf d p (MC (BIA bits values x)) -> wf d p (MC b') ->
  (forall j, get b' j = if idx d (hash c) =? j then o else getv bits values j) ->
  alike (ovisit o) (without c (ovisit (getv bits values (idx d (hash c))))) ->
  alike (m_visit (MC b')) (without c (m_visit (MC (BIA bits values x)))).
Proof.
  intros HW HW' Hg HA h. destruct b' as [bits' values' x']. rewrite (group_C _ _ _ _ _ _ HW'). specialize (HA h). unfold get in Hg. cbn [bbits bvalues] in Hg.
  rewrite Hg, group_without, (group_C _ _ _ _ _ _ HW). rewrite group_without in HA.
  destruct (N.eqb_spec (hash c) h) as [He|Hh]; [subst h; rewrite N.eqb_refl; exact HA|]. destruct (N.eqb_spec (idx d (hash c)) (idx d h)) as [<-|Hi]; [exact HA|].
  rewrite without_other by exact Hh. reflexivity.
Qed.

(** * insert *)
Lemma c_lift_visit fuel : forall (this right : mnode K V) tf rf c, c_lift fuel this tf right rf = Ret c ->
  m_visit (MC c) = m_visit this ++ m_visit right \/ m_visit (MC c) = m_visit right ++ m_visit this.
Proof.
  induction fuel as [|fuel IH]; intros this right tf rf c; cbn [c_lift]; [discriminate|].
  destruct (fl_flag tf =? fl_flag rf).
  - destruct (flag_next tf) as [[tn|]| |]; cbn [bind unwrap]; try discriminate. destruct (flag_next rf) as [[rn|]| |]; cbn [bind unwrap]; try discriminate.
    destruct (c_lift fuel this tn right rn) as [c1| |] eqn:Hc; cbn [bind]; try discriminate. intros H. apply new_bia_eq in H. subst c.
    cbn [m_visit map concat]. rewrite app_nil_r. apply (IH _ _ _ _ _ Hc).
  - destruct (unwrap_ok (bit_insert (fl_flag tf) (fl_flag rf))) as [fl| |]; cbn [bind]; try discriminate.
    destruct (unwrap_ok (bit_index fl (fl_flag tf))) as [i| |]; cbn [bind]; try discriminate. intros H. apply new_bia_eq in H. subst c.
    destruct (i =? 0); cbn [m_visit map concat]; rewrite app_nil_r; [left|right]; reflexivity.
Qed.
Lemma l_lift_front (nx : lnext K V) k v f r n' e prev h1 : leafy h1 (next_mnode nx) -> fl_hash f = hashk k -> lookup (cls k) (m_visit (next_mnode nx)) = None ->
  l_lift nx k v f = Ret r -> ires r = Some (n', e, prev) -> alike (m_visit n') ((k, v) :: without (cls k) (m_visit (next_mnode nx))).
Proof.
  intros HL Hf Hn. rewrite without_id by exact Hn. unfold l_lift. rewrite Hf.
  assert (Hk : hashk (next_key nx) = h1).
  { destruct nx as [l|s]; cbn in *; [|assumption]. apply (proj2 (proj2 HL) (l_key l, l_value l)). destruct l; left; reflexivity. }
  rewrite Hk. destruct (N.eqb_spec h1 (hashk k)) as [He|Hne].
  - intros [= <-] [= <- <- <-]. cbn [m_visit]. rewrite l_visit_next. intros h. reflexivity.
  - destruct (flag_new_at_depth h1 (fl_depth f)) as [[tf|]| |]; cbn [bind unwrap]; try discriminate.
    destruct (cnode_lift (next_mnode nx) tf (MS (SN k v)) f) as [c| |] eqn:Hc; cbn [bind]; try discriminate. intros [= <-] [= <- <- <-].
    assert (Hx : group (hashk k) (m_visit (next_mnode nx)) = []) by (apply group_none; intros e0 He0; rewrite (leafy_hash _ _ _ HL He0); exact Hne).
    intros h. destruct (c_lift_visit _ _ _ _ _ _ Hc) as [->| ->]; cbn [m_visit]; change (s_visit (SN k v)) with [(k, v)]; rewrite group_app, !group_cons; change (hash (ecls (k, v))) with (hashk k);
      (destruct (N.eqb_spec (hashk k) h) as [<-|Hh]; [rewrite Hx; reflexivity|]); cbn [group filter app]; rewrite ?app_nil_r; reflexivity.
Qed.

Section Query.
Context {Q : Type} {KQ : Key Q}.

Lemma s_insert_front d (this : snode K V) (q : Q) k v f replace r n' e prev : cls q = cls k -> flag_for d (hashk k) f ->
  s_insert this q k v (Some f) replace = Ret r -> ires r = Some (n', e, prev) -> alike (m_visit n') ((k, v) :: without (cls k) (s_visit this)).
Proof.
  intros Hq Hf. unfold s_insert, keqb. rewrite Hq. destruct this as [k1 v1]. cbn [s_key s_value].
  destruct (ceqb_spec (cls k1) (cls k)) as [He|Hne].
  - destruct replace; intros [= <-]; [|discriminate]. intros [= <- <- <-]. unfold s_visit. cbn [m_visit s_visit s_key s_value]. rewrite without_cons.
    change (ecls (k1, v1)) with (cls k1). rewrite He, ceqb_refl. intros h. reflexivity.
  - cbn [unwrap bind]. intros Hr Hi. apply (l_lift_front (NS (SN k1 v1)) k v f r n' e prev (hashk k1)); [reflexivity|exact (proj1 Hf)| |exact Hr|exact Hi].
    cbn. change (ecls (k1, v1)) with (cls k1). destruct (ceqb_spec (cls k1) (cls k)); [contradiction|reflexivity].
Qed.
Lemma l_insert_front d h0 (this : lnode K V) (q : Q) k v f replace r n' e prev : lwf h0 this -> cls q = cls k -> flag_for d (hashk k) f ->
  l_insert this q k v (Some f) replace = Ret r -> ires r = Some (n', e, prev) -> alike (m_visit n') ((k, v) :: without (cls k) (l_visit this)).
Proof.
  intros HL Hq Hf. unfold l_insert. rewrite l_find_ok, Hq. destruct (lookup (cls k) (l_visit this)) as [[fk fv]|] eqn:HF.
  - destruct replace; [|intros [= <-]; discriminate]. pose proof (l_remove_from_ok this q) as HR. rewrite Hq in HR.
    destruct HL as (Hlok & Hu & Hh). destruct (l_remove_from this q) as [|n rk rv|s rk rv]; [discriminate|..]; intros [= <-] [= <- <- <-]; cbn [m_visit l_visit l_new].
    + destruct HR as (_ & _ & H3). rewrite (H3 Hu). intros h. reflexivity.
    + destruct HR as (_ & H3). rewrite (H3 Hu). intros h. reflexivity.
  - cbn [unwrap bind]. intros Hr Hi. apply (l_lift_front (NL this) k v f r n' e prev h0); [exact HL|exact (proj1 Hf)|exact HF|exact Hr|exact Hi].
Qed.

Lemma m_insert_front n : forall d (q : Q) k v f replace r n' e prev, wf d (pre d (hashk k)) n -> cls q = cls k -> flag_for d (hashk k) f ->
  m_insert n q k v (Some f) replace = Ret r -> ires r = Some (n', e, prev) -> alike (m_visit n') ((k, v) :: without (cls k) (m_visit n)).
Proof.
  induction n as [bits values x IH|l|s] using mnode_ind'; intros d q k v f replace r n' e prev HW Hq Hf Hr Hi.
  2:{ inversion HW as [|? ? ? h0 HL _|]; subst. exact (l_insert_front d h0 l q k v f replace r n' e prev HL Hq Hf Hr Hi). }
  2:{ exact (s_insert_front d s q k v f replace r n' e prev Hq Hf Hr Hi). }
  assert (HWn : wf d (pre d (hashk k)) n').
  { pose proof (m_insert_ok (MC (BIA bits values x)) d q k v f replace HW Hq Hf) as H. destruct (checked && hits d (hashk k) (MC (BIA bits values x))); [congruence|].
    destruct H as (r0 & H0 & H1 & _). assert (Hr0 : r0 = r) by congruence. subst r0. unfold ins_ok in H1. rewrite Hi in H1. apply H1. }
  rewrite Forall_forall in IH. inversion HW as [| |? ? ? ? ? Ho Hp Hok Hne Hx Hch]; subst d0 p bits0 values0 x0.
  cbn [m_insert unwrap bind] in Hr. rewrite bat_map in Hr. rewrite (proj2 (proj2 Hf) Ho) in Hr. rewrite (bat_get fw) in Hr by exact Hok. unfold get in Hr. cbn [bbits bvalues] in Hr.
  assert (Hupd : forall c c' z b', getv bits values (idx d (hashk k)) = Some c -> bupdated (BIA bits values x) (2 ^ idx d (hashk k)) c' z = Ok b' ->
    n' = MC b' -> alike (m_visit c') ((k, v) :: without (cls k) (m_visit c)) -> alike (m_visit n') ((k, v) :: without (cls k) (m_visit (MC (BIA bits values x))))).
  { intros c c' z b' Hg Hb -> HA. destruct (bupdated_ok fw (BIA bits values x) (idx d (hashk k)) c' c z Hok Hg) as (b1 & Hb1 & _ & _ & Hget).
    rewrite Hb in Hb1. injection Hb1 as <-. apply (slot_front _ _ _ _ _ _ _ _ (Some c') HW HWn Hget). rewrite Hg. exact HA. }
  destruct (getv bits values (idx d (hashk k))) as [c|] eqn:Hg.
  - pose proof (Hch _ _ Hg) as HWc. rewrite <- pre_succ in HWc.
    destruct (flag_next_cases d (hashk k) f Hf Ho) as [(Hck & Hge & Hnx)|(Hcase & g & Hnx & Hfg)]; [destruct c; rewrite Hnx in Hr; discriminate|].
    assert (IHc : forall r1 n1 e1 p1, m_insert c q k v (Some g) replace = Ret r1 -> ires r1 = Some (n1, e1, p1) -> alike (m_visit n1) ((k, v) :: without (cls k) (m_visit c))).
    { intros r1 n1 e1 p1 H1 H2. exact (IH c (getv_in _ _ _ _ Hg) _ q k v g replace r1 n1 e1 p1 HWc Hq Hfg H1 H2). }
    destruct c as [c|l|s]; rewrite Hnx in Hr; cbn [bind] in Hr.
    + destruct (m_insert (MC c) q k v (Some g) replace) as [r1| |] eqn:H1; cbn [bind] in Hr; try discriminate.
      destruct r1 as [|c2 k' v' pv|l2 k' v' pv|s2 k' v' pv]; try discriminate; [injection Hr as <-; discriminate|].
      destruct (usub (x + bextra c2) (bextra c)) as [z| |]; cbn [bind] in Hr; try discriminate.
      destruct (bupdated (BIA bits values x) (2 ^ idx d (hashk k)) (MC c2) z) as [b|] eqn:Hb; cbn [unwrap_ok bind] in Hr; try discriminate.
      injection Hr as <-. injection Hi as <- <- <-. eapply Hupd; [reflexivity|exact Hb|reflexivity|]. exact (IHc _ _ _ _ eq_refl eq_refl).
    + cbn [m_insert] in IHc. destruct (l_insert l q k v (Some g) replace) as [r1| |] eqn:H1; cbn [bind] in Hr; try discriminate.
      destruct r1 as [|c2 k' v' pv|l2 k' v' pv|s2 k' v' pv]; try discriminate; [injection Hr as <-; discriminate|..].
      * destruct (bupdated (BIA bits values x) (2 ^ idx d (hashk k)) (MC c2) (x + 1)) as [b|] eqn:Hb; cbn [unwrap_ok bind] in Hr; try discriminate.
        injection Hr as <-. injection Hi as <- <- <-. eapply Hupd; [reflexivity|exact Hb|reflexivity|]. exact (IHc _ _ _ _ eq_refl eq_refl).
      * destruct (usub (x + l_size l2) (l_size l)) as [z| |]; cbn [bind] in Hr; try discriminate.
        destruct (bupdated (BIA bits values x) (2 ^ idx d (hashk k)) (ML l2) z) as [b|] eqn:Hb; cbn [unwrap_ok bind] in Hr; try discriminate.
        injection Hr as <-. injection Hi as <- <- <-. eapply Hupd; [reflexivity|exact Hb|reflexivity|]. exact (IHc _ _ _ _ eq_refl eq_refl).
    + cbn [m_insert] in IHc. destruct (s_insert s q k v (Some g) replace) as [r1| |] eqn:H1; cbn [bind] in Hr; try discriminate.
      destruct r1 as [|c2 k' v' pv|l2 k' v' pv|s2 k' v' pv]; [injection Hr as <-; discriminate|..].
      * destruct (bupdated (BIA bits values x) (2 ^ idx d (hashk k)) (MC c2) (x + 1)) as [b|] eqn:Hb; cbn [unwrap_ok bind] in Hr; try discriminate.
        injection Hr as <-. injection Hi as <- <- <-. eapply Hupd; [reflexivity|exact Hb|reflexivity|]. exact (IHc _ _ _ _ eq_refl eq_refl).
      * destruct (bupdated (BIA bits values x) (2 ^ idx d (hashk k)) (ML l2) (x + 1)) as [b|] eqn:Hb; cbn [unwrap_ok bind] in Hr; try discriminate.
        injection Hr as <-. injection Hi as <- <- <-. eapply Hupd; [reflexivity|exact Hb|reflexivity|]. exact (IHc _ _ _ _ eq_refl eq_refl).
      * destruct (bupdated (BIA bits values x) (2 ^ idx d (hashk k)) (MS s2) x) as [b|] eqn:Hb; cbn [unwrap_ok bind] in Hr; try discriminate.
        injection Hr as <-. injection Hi as <- <- <-. eapply Hupd; [reflexivity|exact Hb|reflexivity|]. exact (IHc _ _ _ _ eq_refl eq_refl).
  - destruct (binserted_ok fw (BIA bits values x) (idx d (hashk k)) (MS (SN k v)) (x + 1) Hok (idx_lt _ _) Hg) as (b1 & Hb1 & _ & _ & Hget).
    rewrite Hb1 in Hr. cbn [unwrap_ok bind] in Hr. injection Hr as <-. injection Hi as <- <- <-.
    apply (slot_front _ _ _ _ _ _ _ _ (Some (MS (SN k v))) HW HWn Hget). rewrite Hg. intros h. reflexivity.
Qed.

(** * remove *)
Lemma m_remove_alike n : forall d (q : Q) f r, wf d (pre d (hashk q)) n -> flag_for d (hashk q) f -> m_remove n q (Some f) = Ret r ->
  match rnode r with Some (n', _) => alike (m_visit n') (without (cls q) (m_visit n)) | None => True end.
Proof.
  induction n as [bits values x IH|l|s] using mnode_ind'; intros d q f r HW Hf Hr.
  2:{ inversion HW as [|? ? ? h0 (_ & Hu & _) _|]; subst. cbn [m_remove] in Hr. injection Hr as <-. unfold l_remove. pose proof (l_remove_from_ok l q) as HR.
      destruct (l_remove_from l q) as [|n k v|s k v]; cbn [rnode]; [exact Logic.I|..]; cbn [m_visit]; [destruct HR as (_ & _ & H)|destruct HR as (_ & H)]; rewrite (H Hu); intros h; reflexivity. }
  2:{ cbn [m_remove] in Hr. injection Hr as <-. unfold s_remove. destruct (keqb (s_key s) q); exact Logic.I. }
  destruct (rnode r) as [[n' e]|] eqn:Hn; [|exact Logic.I].
  assert (HWn : wf d (pre d (hashk q)) n').
  { pose proof (m_remove_ok (MC (BIA bits values x)) d q f HW Hf) as H. destruct (checked && hits d (hashk q) (MC (BIA bits values x))); [congruence|].
    destruct H as (r0 & H0 & H1). assert (Hr0 : r0 = r) by congruence. subst r0. unfold rem_ok in H1. destruct r; try discriminate; rewrite Hn in H1; apply H1. }
  rewrite Forall_forall in IH. inversion HW as [| |? ? ? ? ? Ho Hp Hok Hne Hx Hch]; subst d0 p bits0 values0 x0.
  cbn [m_remove unwrap bind] in Hr. rewrite bat_map in Hr. rewrite (proj2 (proj2 Hf) Ho) in Hr. rewrite (bat_get fw) in Hr by exact Hok. unfold get in Hr. cbn [bbits bvalues] in Hr.
  destruct (getv bits values (idx d (hashk q))) as [c|] eqn:Hg; [|injection Hr as <-; discriminate].
  pose proof (Hch _ _ Hg) as HWc. rewrite <- pre_succ in HWc.
  destruct (flag_next_cases d (hashk q) f Hf Ho) as [(Hck & Hge & Hnx)|(Hcase & g & Hnx & Hfg)]; rewrite Hnx in Hr; [discriminate|]. cbn [bind] in Hr.
  destruct (m_remove c q (Some g)) as [r1| |] eqn:H1; cbn [bind] in Hr; try discriminate.
  pose proof (IH c (getv_in _ _ _ _ Hg) (d + 1) q g r1 HWc Hfg H1) as IHc.
  assert (Hupd : forall c' z b', bupdated (BIA bits values x) (2 ^ idx d (hashk q)) c' z = Ok b' -> n' = MC b' -> alike (m_visit c') (without (cls q) (m_visit c)) ->
     alike (m_visit n') (without (cls q) (m_visit (MC (BIA bits values x))))).
  { intros c' z b' Hb -> HA. destruct (bupdated_ok fw (BIA bits values x) (idx d (hashk q)) c' c z Hok Hg) as (b1 & Hb1 & _ & _ & Hget).
    rewrite Hb in Hb1. injection Hb1 as <-. apply (slot_without _ _ _ _ _ _ _ (Some c') HW HWn Hget). fold (hashk q). rewrite Hg. exact HA. }
  destruct r1 as [|c2 k' v'|l2 k' v'|s2 k' v'|k' v']; cbn [rnode] in IHc.
  - injection Hr as <-. discriminate.
  - destruct (bextra c2 =? 0); try discriminate. destruct (usub x 1) as [z| |]; cbn [bind] in Hr; try discriminate.
    destruct (bupdated (BIA bits values x) (2 ^ idx d (hashk q)) (MC c2) z) as [b|] eqn:Hb; cbn [unwrap_ok bind] in Hr; try discriminate.
    injection Hr as <-. injection Hn as <- <-. eapply Hupd; [exact Hb|reflexivity|exact IHc].
  - destruct (usub x 1) as [z| |]; cbn [bind] in Hr; try discriminate.
    destruct (bupdated (BIA bits values x) (2 ^ idx d (hashk q)) (ML l2) z) as [b|] eqn:Hb; cbn [unwrap_ok bind] in Hr; try discriminate.
    injection Hr as <-. injection Hn as <- <-. eapply Hupd; [exact Hb|reflexivity|exact IHc].
  - destruct (usub x 1) as [z| |]; cbn [bind] in Hr; try discriminate.
    destruct (bupdated (BIA bits values x) (2 ^ idx d (hashk q)) (MS s2) z) as [b|] eqn:Hb; cbn [unwrap_ok bind] in Hr; try discriminate.
    injection Hr as <-. injection Hn as <- <-. eapply Hupd; [exact Hb|reflexivity|exact IHc].
  - destruct (x =? 1); [injection Hr as <-; discriminate|]. destruct (usub x 1) as [z| |]; cbn [bind] in Hr; try discriminate.
    destruct (bremoved (BIA bits values x) (2 ^ idx d (hashk q)) z) as [b|] eqn:Hb; cbn [unwrap_ok bind] in Hr; try discriminate.
    injection Hr as <-. injection Hn as <- <-.
    destruct (bremoved_ok fw (BIA bits values x) (idx d (hashk q)) c z Hok Hg) as (b1 & Hb1 & _ & _ & Hget). rewrite Hb in Hb1. injection Hb1 as <-.
    apply (slot_without _ _ _ _ _ _ _ None HW HWn Hget). fold (hashk q). rewrite Hg. cbn [ovisit].
    pose proof (m_remove_ok c (d + 1) q g HWc Hfg) as H. destruct (checked && hits (d + 1) (hashk q) c); [congruence|].
    destruct H as (r0 & H0 & H2). assert (Hr0 : r0 = RZ k' v') by congruence. subst r0. cbn [rem_ok] in H2. destruct H2 as [HLk Hv]. rewrite Hv in *.
    rewrite lookup_cons in HLk. rewrite without_cons. destruct (ceqb (ecls (k', v')) (cls q)); [|discriminate]. intros h. reflexivity.
Qed.
End Query.

(** * The API *)
Theorem insert_front {Q} {KQ : Key Q} (into : Q -> K) (m : trie K V) (q : Q) v replace m' e prev : reachable m -> cls (into q) = cls q ->
  map_insert into m q v replace = Ret (Ok (m', e, prev)) -> alike (map_visit m') ((into q, v) :: without (cls q) (map_visit m)).
Proof.
  intros HR Hq H. unfold map_insert in H. assert (Hh : hashk q = hashk (into q)) by (unfold hashk; rewrite Hq; reflexivity).
  destruct (flag_new (hashk q)) as [f| |] eqn:Hf; cbn [bind] in H; try discriminate.
  assert (Hff : flag_for 0 (hashk (into q)) f) by (rewrite <- Hh; rewrite flag_new_ok in Hf; injection Hf as <-; apply flag_for_0).
  destruct (m_insert m q (into q) v (Some f) replace) as [r| |] eqn:Hr; cbn [bind] in H; try discriminate.
  rewrite <- Hq. unfold map_visit. eapply (m_insert_front m 0 q (into q) v f replace r m' e prev); [|symmetry; exact Hq|exact Hff|exact Hr|].
  - rewrite pre_0. exact (reachable_mwf _ HR).
  - destruct r; cbn [ires]; try discriminate; injection H as <- <- <-; reflexivity.
Qed.
Theorem remove_alike {Q} {KQ : Key Q} (m : trie K V) (q : Q) m' e : reachable m -> map_remove m q = Ret (Ok (m', e)) ->
  alike (map_visit m') (without (cls q) (map_visit m)).
Proof.
  intros HR H. pose proof H as H0. unfold map_remove in H. destruct (flag_new (hashk q)) as [f| |] eqn:Hf; cbn [bind] in H; try discriminate.
  assert (Hff : flag_for 0 (hashk q) f) by (rewrite flag_new_ok in Hf; injection Hf as <-; apply flag_for_0).
  destruct (m_remove m q (Some f)) as [r| |] eqn:Hr; cbn [bind] in H; try discriminate.
  assert (HW : wf 0 (pre 0 (hashk q)) m) by (rewrite pre_0; exact (reachable_mwf _ HR)).
  pose proof (m_remove_alike m 0 q f r HW Hff Hr) as HA. destruct r; try discriminate; injection H as <- <-; cbn [rnode] in HA; try exact HA.
  pose proof (m_remove_ok m 0 q f HW Hff) as H1. destruct (checked && hits 0 (hashk q) m); [congruence|].
  destruct H1 as (r0 & H2 & H3). rewrite Hr in H2. injection H2 as <-. cbn [rem_ok] in H3. destruct H3 as [HL Hv]. unfold map_visit. rewrite Hv in *.
  rewrite lookup_cons in HL. rewrite without_cons. destruct (ceqb (ecls (k, v)) (cls q)); [|discriminate]. intros h. reflexivity.
Qed.

(** * Histories *)
Lemma lookup_group c (l : list (K * V)) : lookup c l = lookup c (group (hash c) l).
Proof.
  induction l as [|a l IH]; [reflexivity|]. rewrite group_cons, lookup_cons. destruct (ceqb_spec (ecls a) c) as [He|Hne].
  - rewrite He, N.eqb_refl, lookup_cons, He, ceqb_refl. reflexivity.
  - destruct (hash (ecls a) =? hash c); [|exact IH]. rewrite lookup_cons. destruct (ceqb_spec (ecls a) c); [contradiction|exact IH].
Qed.
Lemma alike_lookup c l l' : alike l l' -> lookup c l = lookup c l'.
Proof. intros H. rewrite (lookup_group c l), (lookup_group c l'), (H (hash c)). reflexivity. Qed.
Lemma alike_trans l1 l2 l3 : alike l1 l2 -> alike l2 l3 -> alike l1 l3.
Proof. intros H1 H2 h. rewrite H1. apply H2. Qed.
Lemma alike_without c l l' : alike l l' -> alike (without c l) (without c l').
Proof. intros H h. rewrite !group_without, (H h). reflexivity. Qed.
Lemma alike_cons e l l' : alike l l' -> alike (e :: l) (e :: l').
Proof. intros H h. rewrite !group_cons, (H h). reflexivity. Qed.

Lemma step_alike (o : op K V) (m m' : trie K V) x l : reachable m -> alike (map_visit m) l -> step m o = Ret (m', x) ->
  reachable m' /\ alike (map_visit m') (fst (spec_step l o)).
Proof.
  intros HR HA H. destruct o as [k v replace|k|k]; cbn [step spec_step] in *.
  - unfold spec_insert. rewrite <- (alike_lookup (cls k) _ _ HA). pose proof (map_insert_ok (fun y : K => y) m k v replace (reachable_mwf _ HR) eq_refl) as HI.
    destruct (map_insert (fun y : K => y) m k v replace) as [r| |] eqn:Hr; cbn [bind] in H; try discriminate.
    destruct (checked && deep m (cls k)); [discriminate|]. unfold spec_insert in HI. destruct r as [[[m1 e1] p1]|e1]; injection H as <- <-.
    + split; [exact (reach_insert K V KK K KK (fun y => y) m k v replace m1 e1 p1 HR eq_refl Hr)|].
      pose proof (insert_front (fun y : K => y) m k v replace m1 e1 p1 HR eq_refl Hr) as HF. apply (alike_trans _ _ _ HF).
      destruct (lookup (cls k) (map_visit m)) as [e0|] eqn:HL.
      * destruct replace; [|discriminate]. cbn [fst]. apply alike_cons, alike_without. exact HA.
      * cbn [fst]. rewrite without_id by exact HL. apply alike_cons. exact HA.
    + split; [exact HR|]. destruct (lookup (cls k) (map_visit m)) as [e0|] eqn:HL.
      * destruct replace; [destruct HI as (m1 & HI & _); discriminate|exact HA].
      * destruct HI as (m1 & HI & _). discriminate.
  - unfold spec_remove. rewrite <- (alike_lookup (cls k) _ _ HA). pose proof (map_remove_ok m k (reachable_mwf _ HR)) as HI.
    destruct (map_remove m k) as [r| |] eqn:Hr; cbn [bind] in H; try discriminate. destruct (checked && deep m (cls k)); [discriminate|].
    unfold spec_remove in HI. destruct r as [[m1 e1]|e1]; injection H as <- <-.
    + split; [exact (reach_remove K V KK K KK m k m1 e1 HR Hr)|]. apply (alike_trans _ _ _ (remove_alike m k m1 e1 HR Hr)).
      destruct (lookup (cls k) (map_visit m)) as [e0|] eqn:HL; [|discriminate]. cbn [fst]. apply alike_without. exact HA.
    + split; [exact HR|]. destruct (lookup (cls k) (map_visit m)) as [e0|]; [destruct HI as (m1 & HI & _); discriminate|exact HA].
  - destruct (map_find m k) as [[e|e]| |]; cbn [bind] in H; try discriminate; injection H as <- <-; (split; [exact HR|]); destruct (lookup (cls k) l); exact HA.
Qed.
Theorem run_alike (os : list (op K V)) : forall (m m' : trie K V) xs l, reachable m -> alike (map_visit m) l -> run m os = Ret (m', xs) ->
  alike (map_visit m') (fst (spec_run l os)).
Proof.
  induction os as [|o os IH]; intros m m' xs l HR HA H; cbn [run spec_run] in *; [injection H as <- <-; exact HA|].
  destruct (step m o) as [[m1 x]| |] eqn:Hs; cbn [bind] in H; try discriminate. destruct (step_alike o m m1 x l HR HA Hs) as [HR1 HA1].
  destruct (run m1 os) as [[m2 ys]| |] eqn:Hr; cbn [bind] in H; try discriminate. injection H as <- <-.
  specialize (IH m1 m2 ys _ HR1 HA1 Hr). destruct (spec_step l o) as [l1 y]. cbn [fst] in *. destruct (spec_run l1 os). exact IH.
Qed.

(** * One order *)
Lemma ss_alike : forall l l', StronglySorted ele l -> StronglySorted ele l' -> alike l l' -> l = l'.
Proof.
  assert (Hin : forall a l l', alike (a :: l) l' -> In a l').
  { intros a l l' HA. apply (proj1 (group_in (hash (ecls a)) l' a)). rewrite <- (HA (hash (ecls a))), group_cons, N.eqb_refl. left. reflexivity. }
  induction l as [|a l IH]; intros l' H H' HA.
  - destruct l' as [|b l']; [reflexivity|]. exfalso. apply (Hin b l' []). intros h. symmetry. apply HA.
  - destruct l' as [|b l']; [destruct (Hin _ _ _ HA)|]. inversion H as [|? ? Hl Ha]; subst. inversion H' as [|? ? Hl' Hb]; subst. rewrite Forall_forall in Ha, Hb.
    assert (Hh : hash (ecls a) = hash (ecls b)).
    { destruct (Hin _ _ _ HA) as [Hx|Hx]; [congruence|]. assert (HA' : alike (b :: l') (a :: l)) by (intros h; symmetry; apply HA).
      destruct (Hin _ _ _ HA') as [Hy|Hy]; [congruence|]. apply hle_anti; [apply Ha; exact Hy|apply Hb; exact Hx]. }
    assert (Hab : a = b).
    { pose proof (HA (hash (ecls a))) as Hg. rewrite !group_cons, <- Hh, N.eqb_refl in Hg. congruence. }
    subst b. f_equal. apply IH; [exact Hl|exact Hl'|]. intros h. specialize (HA h). rewrite !group_cons in HA. destruct (hash (ecls a) =? h); congruence.
Qed.
Theorem run_sorted (os : list (op K V)) (m : trie K V) xs : run map_new os = Ret (m, xs) ->
  forall l, StronglySorted ele l -> alike l (fst (spec_run [] os)) -> map_visit m = l.
Proof.
  intros H l HS HA. assert (HR0 : reachable (map_new (K := K) (V := V))) by constructor.
  assert (HA0 : alike (map_visit (map_new (K := K) (V := V))) []) by (intros h; reflexivity).
  pose proof (run_alike os map_new m xs [] HR0 HA0 H) as HA1.
  assert (HR : reachable m).
  { clear - H HR0. revert H HR0. generalize (map_new (K := K) (V := V)). revert xs. induction os as [|o os IH]; intros xs m0 H HR; cbn [run] in H; [injection H as <- <-; exact HR|].
    destruct (step m0 o) as [[m1 x]| |] eqn:Hs; cbn [bind] in H; try discriminate. destruct (step_alike o m0 m1 x _ HR (fun h => eq_refl) Hs) as [HR1 _].
    destruct (run m1 os) as [[m2 ys]| |] eqn:Hr; cbn [bind] in H; try discriminate. injection H as <- <-. exact (IH ys m1 Hr HR1). }
  apply ss_alike; [exact (visit_sorted m HR)|exact HS|]. intros h. rewrite (HA1 h). symmetry. apply HA.
Qed.
Theorem alike_visit (m m' : trie K V) : reachable m -> reachable m' -> alike (map_visit m) (map_visit m') -> map_visit m = map_visit m'.
Proof. intros HR HR'. apply ss_alike; [exact (visit_sorted m HR)|exact (visit_sorted m' HR')]. Qed.
Theorem alike_grown (m m' : trie K V) : grown m -> grown m' -> alike (map_visit m) (map_visit m') -> m = m'.
Proof.
  intros HG HG' HA. pose proof (grown_unpruned m HG) as HU. pose proof (grown_unpruned m' HG') as HU'.
  apply visit_same; [exact HU|exact HU'|rewrite (grown_rooted m HG), (grown_rooted m' HG'); reflexivity|].
  apply alike_visit; [exact (unpruned_reachable _ HU)|exact (unpruned_reachable _ HU')|exact HA].
Qed.

(** remove keeps the order altogether. *)
Lemma ss_without c (l : list (K * V)) : StronglySorted ele l -> StronglySorted ele (without c l).
Proof.
  induction 1 as [|a l _ IH Ha]; [constructor|]. rewrite without_cons. destruct (ceqb (ecls a) c); [exact IH|]. constructor; [exact IH|].
  rewrite Forall_forall in *. intros x Hx. apply Ha. apply without_in in Hx. apply Hx.
Qed.
Theorem remove_visit {Q} {KQ : Key Q} (m : trie K V) (q : Q) m' e : reachable m -> map_remove m q = Ret (Ok (m', e)) ->
  map_visit m' = without (cls q) (map_visit m).
Proof.
  intros HR H. apply ss_alike; [exact (visit_sorted m' (reach_remove K V KK Q KQ m q m' e HR H))|apply ss_without; exact (visit_sorted m HR)|].
  exact (remove_alike m q m' e HR H).
Qed.

(** insert changes the order of nothing else either. *)
Theorem insert_visit {Q} {KQ : Key Q} (into : Q -> K) (m : trie K V) (q : Q) v replace m' e prev : reachable m -> cls (into q) = cls q ->
  map_insert into m q v replace = Ret (Ok (m', e, prev)) ->
  exists l1 l2, map_visit m' = l1 ++ (into q, v) :: l2 /\ without (cls q) (map_visit m) = l1 ++ l2 /\
    (forall x, In x l1 -> earlier (log_b fw) (hash (cls (fst x))) (hash (cls q))) /\
    (forall x, In x l2 -> hash (cls (fst x)) = hash (cls q) \/ earlier (log_b fw) (hash (cls q)) (hash (cls (fst x)))).
Proof.
  intros HR Hq H. assert (HR' : reachable m') by exact (reach_insert K V KK Q KQ into m q v replace m' e prev HR Hq H).
  pose proof (insert_front into m q v replace m' e prev HR Hq H) as HA. pose proof (visit_sorted m' HR') as HS. pose proof (mwf_uniq _ (reachable_mwf _ HR')) as HU.
  assert (Hec : ecls (into q, v) = cls q) by exact Hq.
  assert (Hg : group (hash (cls q)) (map_visit m') = (into q, v) :: group (hash (cls q)) (without (cls q) (map_visit m))) by (rewrite (HA (hash (cls q))), group_cons, Hec, N.eqb_refl; reflexivity).
  assert (Hin : In (into q, v) (map_visit m')) by (apply (proj1 (group_in (hash (cls q)) (map_visit m') (into q, v))); rewrite Hg; left; reflexivity).
  destruct (in_split _ _ Hin) as (l1 & l2 & Hv). exists l1, l2. split; [exact Hv|].
  assert (Hn : forall x, In x (l1 ++ l2) -> ecls x <> cls q).
  { intros x Hx Hc. rewrite Hv in HU. unfold uniq in HU. rewrite map_app in HU. cbn [map] in HU. apply NoDup_remove_2 in HU. apply HU. rewrite <- map_app, Hec, <- Hc. apply in_map. exact Hx. }
  assert (Hw : without (cls q) (map_visit m') = l1 ++ l2).
  { rewrite Hv. unfold without. rewrite filter_app. cbn [filter]. change (cls (fst (into q, v))) with (ecls (into q, v)). rewrite Hec, ceqb_refl. cbn [negb].
    rewrite <- filter_app. change (without (cls q) (l1 ++ l2) = l1 ++ l2). apply without_id. apply lookup_none. exact Hn. }
  split; [|split].
  - rewrite <- Hw. symmetry. apply ss_alike; [apply ss_without; exact HS|apply ss_without; exact (visit_sorted m HR)|].
    apply (alike_trans _ _ _ (alike_without (cls q) _ _ HA)). rewrite without_cons, Hec, ceqb_refl. rewrite (without_id (cls q) (without (cls q) (map_visit m))); [intros h; reflexivity|].
    apply lookup_none. intros x Hx. apply without_in in Hx. apply Hx.
  - intros x Hx. rewrite Hv in HS. assert (Hle : ele x (into q, v)).
    { clear - HS Hx. induction l1 as [|a l1 IH]; [destruct Hx|]. cbn [app] in HS. inversion HS as [|? ? Hl Ha]; subst. destruct Hx as [->|Hx]; [|apply IH; assumption].
      rewrite Forall_forall in Ha. apply Ha. apply in_or_app. right. left. reflexivity. }
    unfold ele, hle in Hle. cbn [fst] in Hle. rewrite Hq in Hle. destruct Hle as [Hh|Hle]; [|exact Hle]. exfalso.
    rewrite Hv, group_app in Hg. assert (Hx1 : In x (group (hash (cls q)) l1)) by (apply group_in; split; [exact Hx|exact Hh]).
    destruct (group (hash (cls q)) l1) as [|y g1] eqn:Hg1; [destruct Hx1|]. cbn [app] in Hg. injection Hg as Hy _.
    assert (Hy1 : In y l1) by (apply (proj1 (group_in (hash (cls q)) l1 y)); rewrite Hg1; left; reflexivity).
    apply (Hn y); [apply in_or_app; left; exact Hy1|]. rewrite Hy. exact Hec.
  - intros x Hx. rewrite Hv in HS. clear - HS Hx Hq. induction l1 as [|a l1 IH]; cbn [app] in HS; inversion HS as [|? ? Hl Ha]; subst; [|apply IH; assumption].
    rewrite Forall_forall in Ha. specialize (Ha x Hx). unfold ele, hle in Ha. cbn [fst] in Ha. rewrite Hq in Ha. destruct Ha as [Ha|Ha]; [left; symmetry; exact Ha|right; exact Ha].
Qed.

(** * Calls that cancel or commute *)
Theorem insert_remove_visit {Q} {KQ : Key Q} {Q'} {KQ' : Key Q'} (into : Q -> K) (m : trie K V) (q : Q) (q' : Q') v replace m1 e prev m2 e2 : reachable m -> cls (into q) = cls q ->
  cls q' = cls q -> map_find m q = Ret (Err NotFound) -> map_insert into m q v replace = Ret (Ok (m1, e, prev)) -> map_remove m1 q' = Ret (Ok (m2, e2)) -> map_visit m2 = map_visit m.
Proof.
  intros HR Hq Hq' Hf Hi Hr. assert (HR1 : reachable m1) by exact (reach_insert K V KK Q KQ into m q v replace m1 e prev HR Hq Hi).
  assert (HR2 : reachable m2) by exact (reach_remove K V KK Q' KQ' m1 q' m2 e2 HR1 Hr). apply alike_visit; [exact HR2|exact HR|].
  apply (alike_trans _ _ _ (remove_alike m1 q' m2 e2 HR1 Hr)). apply (alike_trans _ _ _ (alike_without _ _ _ (insert_front into m q v replace m1 e prev HR Hq Hi))).
  rewrite Hq', without_cons. change (ecls (into q, v)) with (cls (into q)). rewrite Hq, ceqb_refl. rewrite map_find_ok in Hf by exact (reachable_mwf _ HR).
  assert (HL : lookup (cls q) (map_visit m) = None) by (destruct (lookup (cls q) (map_visit m)); [discriminate|reflexivity]).
  rewrite !without_id; rewrite ?without_id by exact HL; try exact HL. intros h. reflexivity.
Qed.
Lemma without_without c c' (l : list (K * V)) : without c (without c' l) = without c' (without c l).
Proof.
  induction l as [|a l IH]; [reflexivity|]. rewrite !without_cons. destruct (ceqb (ecls a) c') eqn:H1, (ceqb (ecls a) c) eqn:H2; rewrite ?without_cons, ?H1, ?H2, IH; reflexivity.
Qed.
(** Keys of different hashes. *)
Theorem insert_insert_visit {Q1} {KQ1 : Key Q1} {Q2} {KQ2 : Key Q2} (into1 : Q1 -> K) (into2 : Q2 -> K) (m : trie K V) (q1 : Q1) (q2 : Q2) v1 v2 r1 r2 m1 m2 m12 m21 e1 p1 e2 p2 e12 p12 e21 p21 :
  reachable m -> cls (into1 q1) = cls q1 -> cls (into2 q2) = cls q2 -> hash (cls q1) <> hash (cls q2) ->
  map_insert into1 m q1 v1 r1 = Ret (Ok (m1, e1, p1)) -> map_insert into2 m1 q2 v2 r2 = Ret (Ok (m12, e12, p12)) ->
  map_insert into2 m q2 v2 r2 = Ret (Ok (m2, e2, p2)) -> map_insert into1 m2 q1 v1 r1 = Ret (Ok (m21, e21, p21)) -> map_visit m12 = map_visit m21.
Proof.
  intros HR Hq1 Hq2 Hne H1 H12 H2 H21.
  assert (HR1 : reachable m1) by exact (reach_insert K V KK Q1 KQ1 into1 m q1 v1 r1 m1 e1 p1 HR Hq1 H1).
  assert (HR2 : reachable m2) by exact (reach_insert K V KK Q2 KQ2 into2 m q2 v2 r2 m2 e2 p2 HR Hq2 H2).
  assert (HR12 : reachable m12) by exact (reach_insert K V KK Q2 KQ2 into2 m1 q2 v2 r2 m12 e12 p12 HR1 Hq2 H12).
  assert (HR21 : reachable m21) by exact (reach_insert K V KK Q1 KQ1 into1 m2 q1 v1 r1 m21 e21 p21 HR2 Hq1 H21).
  apply alike_visit; [exact HR12|exact HR21|]. intros h.
  rewrite (insert_front into2 m1 q2 v2 r2 m12 e12 p12 HR1 Hq2 H12 h), (insert_front into1 m2 q1 v1 r1 m21 e21 p21 HR2 Hq1 H21 h).
  rewrite !group_cons, !group_without. rewrite (insert_front into1 m q1 v1 r1 m1 e1 p1 HR Hq1 H1 h), (insert_front into2 m q2 v2 r2 m2 e2 p2 HR Hq2 H2 h).
  rewrite !group_cons, !group_without. change (hash (ecls (into1 q1, v1))) with (hash (cls (into1 q1))). change (hash (ecls (into2 q2, v2))) with (hash (cls (into2 q2))).
  rewrite Hq1, Hq2. destruct (N.eqb_spec (hash (cls q1)) h) as [Ha|Ha], (N.eqb_spec (hash (cls q2)) h) as [Hb|Hb]; [congruence|..].
  - rewrite without_cons. change (ecls (into1 q1, v1)) with (cls (into1 q1)). rewrite Hq1. destruct (ceqb_spec (cls q1) (cls q2)) as [Hx|_]; [congruence|]. rewrite without_without. reflexivity.
  - rewrite without_cons. change (ecls (into2 q2, v2)) with (cls (into2 q2)). rewrite Hq2. destruct (ceqb_spec (cls q2) (cls q1)) as [Hx|_]; [congruence|]. rewrite without_without. reflexivity.
  - apply without_without.
Qed.
Theorem remove_remove_visit {Q1} {KQ1 : Key Q1} {Q2} {KQ2 : Key Q2} (m : trie K V) (q1 : Q1) (q2 : Q2) m1 m2 m12 m21 e1 e2 e12 e21 : reachable m ->
  map_remove m q1 = Ret (Ok (m1, e1)) -> map_remove m1 q2 = Ret (Ok (m12, e12)) ->
  map_remove m q2 = Ret (Ok (m2, e2)) -> map_remove m2 q1 = Ret (Ok (m21, e21)) -> map_visit m12 = map_visit m21.
Proof.
  intros HR H1 H12 H2 H21. assert (HR1 : reachable m1) by exact (reach_remove K V KK Q1 KQ1 m q1 m1 e1 HR H1).
  assert (HR2 : reachable m2) by exact (reach_remove K V KK Q2 KQ2 m q2 m2 e2 HR H2).
  apply alike_visit; [exact (reach_remove K V KK Q2 KQ2 m1 q2 m12 e12 HR1 H12)|exact (reach_remove K V KK Q1 KQ1 m2 q1 m21 e21 HR2 H21)|].
  intros h. rewrite (remove_alike m1 q2 m12 e12 HR1 H12 h), (remove_alike m2 q1 m21 e21 HR2 H21 h), !group_without.
  rewrite (remove_alike m q1 m1 e1 HR H1 h), (remove_alike m q2 m2 e2 HR H2 h), !group_without. apply without_without.
Qed.

End Group.

(** * Sets *)
Section GroupSet.
Context {E : Env} {K : Type} {KK : Key K}.

Lemma group_fst h (l : list (K * unit)) : map fst (group h l) = filter (fun k => hash (cls k) =? h) (map fst l).
Proof. induction l as [|[k u] l IH]; [reflexivity|]. cbn [map filter fst]. rewrite group_cons. change (ecls (k, u)) with (cls k). destruct (hash (cls k) =? h); cbn [map fst]; rewrite IH; reflexivity. Qed.
Lemma without_fst c (l : list (K * unit)) : map fst (without c l) = filter (fun k => negb (ceqb (cls k) c)) (map fst l).
Proof. induction l as [|[k u] l IH]; [reflexivity|]. cbn [map filter fst]. rewrite without_cons. change (ecls (k, u)) with (cls k). destruct (ceqb (cls k) c); cbn [map fst negb]; rewrite IH; reflexivity. Qed.
Theorem set_insert_front {Q} {KQ : Key Q} (into : Q -> K) (s : tset K) (q : Q) replace s' k prev : reachable s -> cls (into q) = cls q ->
  set_insert into s q replace = Ret (Ok (s', k, prev)) ->
  forall h, filter (fun x => hash (cls x) =? h) (set_visit s') =
    filter (fun x => hash (cls x) =? h) (into q :: filter (fun x => negb (ceqb (cls x) (cls q))) (set_visit s)).
Proof.
  intros HR Hq H h. unfold set_insert in H. destruct (map_insert into s q tt replace) as [[[[s1 [k1 u]] p1]|[k1 u]]| |] eqn:Hi; cbn [bind] in H; try discriminate.
  injection H as <- <- <-. unfold set_visit. rewrite <- group_fst, (insert_front into s q tt replace s1 (k1, u) p1 HR Hq Hi h), group_fst. cbn [map fst]. rewrite without_fst. reflexivity.
Qed.
Theorem set_remove_alike {Q} {KQ : Key Q} (s : tset K) (q : Q) s' k : reachable s -> set_remove s q = Ret (Ok (s', k)) ->
  set_visit s' = filter (fun x => negb (ceqb (cls x) (cls q))) (set_visit s).
Proof.
  intros HR H. unfold set_remove in H. destruct (map_remove s q) as [[[s1 [k1 u]]|e]| |] eqn:Hi; cbn [bind] in H; try discriminate.
  injection H as <- <-. unfold set_visit. rewrite <- without_fst. f_equal. apply remove_visit with (e := (k1, u)); assumption.
Qed.

End GroupSet.
