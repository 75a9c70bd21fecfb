(** find, insert and remove on maps that may hold a key twice. *)
From Coq Require Import NArith Arith List Bool Lia ZifyBool ZifyN ZifyNat Permutation.
From Verif Require Import Base Words WordsP Flag FlagP Bia BiaP Node Spec SpecP Inv NodeP InsertP TrieP Api ApiP Weak WeakP.
Import ListNotations.
Open Scope N_scope.

Section WeakOp.
Context {E : Env} {K V : Type} {KK : Key K}.
Context (P : K * V -> Prop).

Lemma sel_cons c (e : K * V) l : sel c (e :: l) = if ceqb (ecls e) c then e :: sel c l else sel c l.
Proof. reflexivity. Qed.

Lemma sel_in c (e : K * V) l : In e (sel c l) <-> In e l /\ ecls e = c.
Proof.
  unfold sel. rewrite filter_In. destruct (ceqb_spec (ecls e) c) as [H|H]; intuition congruence.
Qed.

Lemma new_bia_extra {A} bits (l : list A) x b : new_bia bits l x = Ok b -> bextra b = x.
Proof. unfold new_bia. destruct (negb _); [discriminate|]. destruct (_ <=? _); [|discriminate]. intros [= <-]. reflexivity. Qed.
Lemma bupdated_extra {A} (b : bia A) bit v x b' : bupdated b bit v x = Ok b' -> bextra b' = x.
Proof. unfold bupdated. destruct (bit_index _ _); [|discriminate]. apply new_bia_extra. Qed.
Lemma binserted_extra {A} (b : bia A) bit v x b' : binserted b bit v x = Ok b' -> bextra b' = x.
Proof. unfold binserted. destruct (bit_insert _ _); [|discriminate]. destruct (bit_index _ _); [|discriminate]. apply new_bia_extra. Qed.
Lemma bremoved_extra {A} (b : bia A) bit x b' : bremoved b bit x = Ok b' -> bextra b' = x.
Proof. unfold bremoved. destruct (bit_remove _ _); [|discriminate]. destruct (bit_index _ _); [|discriminate]. apply new_bia_extra. Qed.

Section FindQ.
Context {Q : Type} {KQ : Key Q}.

Lemma m_find_w d p (n : mnode K V) : ww P d p n -> forall (q : Q) f,
  flag_for d (hashk q) f -> m_find n q (Some f) = Ret (hd_error (sel (cls q) (m_visit n))).
Proof.
  induction 1; intros q f Hf.
  - cbn [m_find]. rewrite s_find_ok, sel_lookup. reflexivity.
  - cbn [m_find]. rewrite l_find_ok, sel_lookup. reflexivity.
  - assert (HW : ww P d p (MC (BIA bits values x))) by (econstructor; eassumption).
    rewrite (sel_C _ _ _ _ _ _ _ HW).
    cbn [m_find unwrap bind]. rewrite bat_map.
    rewrite (proj2 (proj2 Hf) H).
    rewrite (bat_get fw) by exact H1. unfold get. cbn [bbits bvalues].
    fold (hashk q). destruct (getv bits values (idx d (hashk q))) as [c|] eqn:Hg; [|reflexivity].
    cbn [ovisit]. destruct c.
    + pose proof (H4 _ _ Hg) as HWc. inversion HWc; subst.
      rewrite (flag_next_ok d (hashk q)) by assumption.
      cbn [bind]. apply (H5 _ _ Hg). apply flag_for_at. assumption.
    + rewrite l_find_ok, sel_lookup. reflexivity.
    + rewrite s_find_ok, sel_lookup. reflexivity.
Qed.

End FindQ.

(** * insert *)

Definition ins_w (d p : N) (old : list (K * V)) (k : K) (v : V) (replace : bool) (r : insert_result K V) : Prop :=
  match ires r with
  | None => match r with IFound k' v' => stack_insert k v replace (sel (cls k) old) = Err (k', v') | _ => False end
  | Some (n', e, prev) =>
      e = (k, v) /\ ww P d p n' /\ lenN (m_visit n') = lenN old + (match prev with Some _ => 0 | None => 1 end) /\
      exists st, stack_insert k v replace (sel (cls k) old) = Ok (st, prev) /\ restack (cls k) st old (m_visit n')
  end.

Lemma sel_apart h1 h2 (l1 l2 : list (K * V)) c : h1 <> h2 ->
  (forall e, In e l1 -> hash (ecls e) = h1) -> (forall e, In e l2 -> hash (ecls e) = h2) ->
  sel c l1 = [] \/ sel c l2 = [].
Proof.
  intros Hn H1 H2. destruct (N.eq_dec (hash c) h1) as [Hc|Hc].
  - right. apply sel_none. intros e He Hec. apply Hn. rewrite <- Hc, <- Hec. apply H2. assumption.
  - left. apply sel_none. intros e He Hec. apply Hc. rewrite <- Hec. apply H1. assumption.
Qed.

Lemma sel_nil_hash c (l : list (K * V)) : (forall e, In e l -> hash (ecls e) <> hash c) -> sel c l = [].
Proof. intros H. apply sel_none. intros e He Hc. apply (H e He). rewrite Hc. reflexivity. Qed.

Lemma restack_new k v (old : list (K * V)) : sel (cls k) old = [] -> restack (cls k) [(k, v)] old ((k, v) :: old).
Proof.
  intros Hn c. rewrite sel_cons. change (ecls (k, v)) with (cls k).
  destruct (ceqb_spec (cls k) c) as [<-|Hc]; [rewrite ceqb_refl, Hn; reflexivity|].
  destruct (ceqb_spec c (cls k)); [congruence|reflexivity].
Qed.

Lemma l_lift_w d h1 (nx : lnext K V) k v f replace :
  leafw P h1 (next_mnode nx) -> P (k, v) -> pre d h1 = pre d (hashk k) -> flag_for d (hashk k) f ->
  sel (cls k) (m_visit (next_mnode nx)) = [] ->
  exists r, l_lift nx k v f = Ret r /\ ins_w d (pre d (hashk k)) (m_visit (next_mnode nx)) k v replace r /\
    match r with IC _ _ _ prev | IL _ _ _ prev => prev = None | _ => False end.
Proof.
  intros HL HP Hp Hf Hn.
  assert (Hk : hashk (next_key nx) = h1).
  { destruct nx as [l|s]; cbn in *; [|apply HL]. apply (proj2 HL (l_key l, l_value l)). destruct l; left; reflexivity. }
  assert (Hh1 : h1 < 2 ^ hbits) by (rewrite <- Hk; apply hashk_lt).
  unfold l_lift. rewrite Hk. destruct Hf as (Hfh & Hfd & Hfb). rewrite Hfh, Hfd.
  destruct (N.eqb_spec h1 (hashk k)) as [He|Hne].
  - eexists. split; [reflexivity|]. split; [|reflexivity].
    unfold ins_w. cbn [ires]. rewrite Hn. split; [destruct nx; reflexivity|]. split; [|split].
    + apply leafw_ww. apply leafw_new; congruence.
    + cbn [m_visit]. rewrite l_visit_next, lenN_cons. lia.
    + exists [(k, v)]. split; [reflexivity|]. cbn [m_visit]. rewrite l_visit_next. apply restack_new. assumption.
  - pose proof (neq_off d _ _ Hne Hh1 (hashk_lt k) Hp) as Hd.
    rewrite flag_at_ok by assumption. cbn [bind unwrap].
    assert (HLs : leafw P (hashk k) (MS (SN k v))) by (split; [assumption|reflexivity]).
    destruct (cnode_lift_w P d h1 (hashk k) (next_mnode nx) (mkFlag h1 d (2 ^ idx d h1)) (MS (SN k v)) f)
      as (c & Hc & HW & HV); try assumption; try apply hashk_lt.
    { apply flag_for_at. assumption. }
    { repeat split; assumption. }
    rewrite Hc. cbn [bind].
    eexists. split; [reflexivity|]. split; [|reflexivity].
    unfold ins_w. cbn [ires s_key s_value]. rewrite Hn.
    split; [reflexivity|]. split; [rewrite <- Hp; exact HW|].
    change (m_visit (MS (SN k v))) with [(k, v)] in HV. split.
    + destruct HV as [HV|HV]; rewrite HV, lenN_app, lenN_cons; change (lenN (@nil (K * V))) with 0; lia.
    + exists [(k, v)]. split; [reflexivity|]. intros c'.
      transitivity (sel c' ((k, v) :: m_visit (next_mnode nx))); [|apply restack_new; assumption].
      destruct HV as [HV|HV]; rewrite HV; [|reflexivity].
      rewrite sel_app. rewrite !sel_cons. change (ecls (k, v)) with (cls k). change (sel c' []) with (@nil (K * V)).
      destruct (ceqb_spec (cls k) c') as [<-|]; [rewrite Hn; reflexivity|apply app_nil_r].
Qed.

Section Query.
Context {Q : Type} {KQ : Key Q}.

(** Removing from a collision list. *)
Lemma l_remove_from_w (l : lnode K V) (q : Q) :
  match l_remove_from l q with
  | LRNotFound => sel (cls q) (l_visit l) = []
  | LRL n k v => (lok l -> lok n) /\ lenN (l_visit n) + 1 = lenN (l_visit l) /\ (forall e, In e (l_visit n) -> In e (l_visit l)) /\
      exists st, sel (cls q) (l_visit l) = (k, v) :: st /\ restack (cls q) st (l_visit l) (l_visit n)
  | LRS s k v => lenN (l_visit l) = 2 /\ In (s_key s, s_value s) (l_visit l) /\
      exists st, sel (cls q) (l_visit l) = (k, v) :: st /\ restack (cls q) st (l_visit l) (s_visit s)
  end.
Proof.
  induction l as [k v n IH z|k v s z]; cbn [l_remove_from l_visit].
  - unfold keqb. destruct (ceqb_spec (cls k) (cls q)) as [He|Hne].
    + split; [cbn; tauto|]. split; [rewrite lenN_cons; lia|]. split; [intros; right; assumption|]. exists (sel (cls q) (l_visit n)).
      rewrite sel_cons. change (ecls (k, v)) with (cls k). rewrite He, ceqb_refl. split; [reflexivity|].
      intros c. rewrite sel_cons. change (ecls (k, v)) with (cls k). rewrite He.
      destruct (ceqb_spec c (cls q)) as [->|Hc]; [reflexivity|]. destruct (ceqb_spec (cls q) c); [congruence|reflexivity].
    + assert (Hrs : forall st l', restack (cls q) st (l_visit n) l' -> restack (cls q) st ((k, v) :: l_visit n) ((k, v) :: l')).
      { intros st l' H c. rewrite !sel_cons. change (ecls (k, v)) with (cls k). rewrite H.
        destruct (ceqb_spec (cls k) c) as [<-|]; [|reflexivity]. destruct (ceqb_spec (cls k) (cls q)); [contradiction|reflexivity]. }
      destruct (l_remove_from n q) as [|n' k' v'|s' k' v'].
      * rewrite sel_cons. change (ecls (k, v)) with (cls k). destruct (ceqb_spec (cls k) (cls q)); [contradiction|assumption].
      * destruct IH as (H1 & H2 & H2' & st & H3 & H4). split; [cbn [lok l_new]; intros [-> Hl]; auto|].
        rewrite l_visit_next. cbn [next_mnode m_visit]. split; [rewrite !lenN_cons; lia|].
        split; [intros e [<-|Hi]; [left; reflexivity|right; auto]|]. exists st.
        rewrite sel_cons. change (ecls (k, v)) with (cls k). destruct (ceqb_spec (cls k) (cls q)); [contradiction|]. auto.
      * destruct IH as (H2 & H2' & st & H3 & H4). split; [cbn; auto|].
        rewrite l_visit_next. cbn [next_mnode m_visit]. split.
        { unfold s_visit. rewrite !lenN_cons. change (lenN (@nil (K * V))) with 0. lia. }
        split. { intros e [<-|[<-|[]]]; [left; reflexivity|right; auto]. } exists st.
        rewrite sel_cons. change (ecls (k, v)) with (cls k). destruct (ceqb_spec (cls k) (cls q)); [contradiction|]. auto.
  - destruct s as [k1 v1]. unfold s_visit, keqb. cbn [s_key s_value].
    destruct (ceqb_spec (cls k) (cls q)) as [He|Hne]; [|destruct (ceqb_spec (cls k1) (cls q)) as [He1|Hne1]].
    + split; [reflexivity|]. split; [right; left; reflexivity|]. exists (sel (cls q) [(k1, v1)]).
      rewrite (sel_cons _ (k, v)). change (ecls (k, v)) with (cls k). rewrite He, ceqb_refl. split; [reflexivity|].
      intros c. cbn [s_key s_value]. rewrite (sel_cons _ (k, v)). change (ecls (k, v)) with (cls k). rewrite He.
      destruct (ceqb_spec c (cls q)) as [->|Hc]; [reflexivity|]. destruct (ceqb_spec (cls q) c); [congruence|reflexivity].
    + split; [reflexivity|]. split; [left; reflexivity|]. exists [].
      rewrite !sel_cons. change (ecls (k, v)) with (cls k). change (ecls (k1, v1)) with (cls k1). rewrite He1, ceqb_refl.
      destruct (ceqb_spec (cls k) (cls q)); [contradiction|]. split; [reflexivity|].
      intros c. cbn [s_key s_value]. rewrite !sel_cons. change (ecls (k, v)) with (cls k). change (ecls (k1, v1)) with (cls k1). rewrite He1.
      destruct (ceqb_spec c (cls q)) as [->|Hc].
      * destruct (ceqb_spec (cls k) (cls q)); [contradiction|reflexivity].
      * destruct (ceqb_spec (cls q) c); [congruence|reflexivity].
    + rewrite !sel_cons. change (ecls (k, v)) with (cls k). change (ecls (k1, v1)) with (cls k1).
      destruct (ceqb_spec (cls k) (cls q)); [contradiction|]. destruct (ceqb_spec (cls k1) (cls q)); [contradiction|]. reflexivity.
Qed.

Lemma s_insert_w d (this : snode K V) (q : Q) k v f replace :
  P (s_key this, s_value this) -> P (k, v) ->
  cls q = cls k -> pre d (hashk (s_key this)) = pre d (hashk k) -> flag_for d (hashk k) f ->
  exists r, s_insert this q k v (Some f) replace = Ret r /\
    ins_w d (pre d (hashk k)) (s_visit this) k v replace r /\ shape_ok (MS this) r.
Proof.
  intros HP0 HP Hq Hp Hf. unfold s_insert, keqb. rewrite Hq.
  destruct this as [k1 v1]. cbn [s_key s_value] in *. destruct (ceqb_spec (cls k1) (cls k)) as [He|Hne].
  - destruct replace; (eexists; split; [reflexivity|]); unfold ins_w, s_visit; cbn [ires s_key s_value];
      rewrite sel_cons; change (ecls (k1, v1)) with (cls k1); rewrite He, ceqb_refl; cbn [stack_insert].
    + split; [|discriminate]. split; [reflexivity|]. split; [constructor; [assumption|reflexivity]|]. split; [reflexivity|].
      exists [(k, v)]. split; [reflexivity|]. intros c. cbn [m_visit]. unfold s_visit. cbn [s_key s_value]. rewrite !sel_cons.
      change (ecls (k1, v1)) with (cls k1). change (ecls (k, v)) with (cls k). rewrite He.
      destruct (ceqb_spec (cls k) c) as [<-|Hc]; [rewrite ceqb_refl; reflexivity|].
      destruct (ceqb_spec c (cls k)); [congruence|reflexivity].
    + split; [reflexivity|exact I].
  - cbn [unwrap bind].
    destruct (l_lift_w d (hashk k1) (NS (SN k1 v1)) k v f replace) as (r & Hr & Hok & Hs); try assumption.
    + split; [assumption|reflexivity].
    + cbn [next_mnode m_visit]. unfold s_visit. cbn [s_key s_value]. rewrite sel_cons. change (ecls (k1, v1)) with (cls k1).
      destruct (ceqb_spec (cls k1) (cls k)); [contradiction|reflexivity].
    + exists r. split; [exact Hr|]. split; [exact Hok|]. destruct r; try contradiction; exact Hs.
Qed.

Lemma l_insert_w d h (this : lnode K V) (q : Q) k v f replace :
  lw P h this -> P (k, v) -> cls q = cls k -> pre d h = pre d (hashk k) -> flag_for d (hashk k) f ->
  exists r, l_insert this q k v (Some f) replace = Ret r /\
    ins_w d (pre d (hashk k)) (l_visit this) k v replace r /\ shape_ok (ML this) r.
Proof.
  intros HL HP Hq Hp Hf. unfold l_insert. rewrite l_find_ok, Hq, sel_lookup.
  destruct (sel (cls k) (l_visit this)) as [|[fk fv] rest] eqn:HF; cbn [hd_error].
  - cbn [unwrap bind].
    destruct (l_lift_w d h (NL this) k v f replace) as (r & Hr & Hok & Hs); try assumption.
    exists r. split; [exact Hr|]. split; [exact Hok|]. destruct r; try contradiction; [exact Hs|exact I].
  - destruct replace.
    + pose proof (l_remove_from_w this q) as HR. rewrite Hq, HF in HR.
      destruct HL as (Hlok & Hh).
      assert (Hhk : h = hashk k).
      { assert (Hi : In (fk, fv) (sel (cls k) (l_visit this))) by (rewrite HF; left; reflexivity).
        apply sel_in in Hi. destruct Hi as [Hi Hc]. rewrite <- (proj2 (Hh _ Hi)). unfold hashk. rewrite Hc. reflexivity. }
      assert (Hnew : forall nx, restack (cls k) rest (l_visit this) (m_visit (next_mnode nx)) ->
         lenN (m_visit (next_mnode nx)) + 1 = lenN (l_visit this) -> leafw P (hashk k) (next_mnode nx) ->
         ins_w d (pre d (hashk k)) (l_visit this) k v true (IL (l_new k v nx) (l_key (l_new k v nx)) (l_value (l_new k v nx)) (Some (fk, fv)))).
      { intros nx Hv Hlen Hlf. unfold ins_w. cbn [ires m_visit]. rewrite l_visit_next, HF. cbn [stack_insert].
        split; [destruct nx; reflexivity|]. split; [apply leafw_ww; apply leafw_new; auto|].
        split; [rewrite lenN_cons; lia|]. exists ((k, v) :: rest). split; [reflexivity|].
        intros c. rewrite sel_cons, Hv. change (ecls (k, v)) with (cls k).
        destruct (ceqb_spec (cls k) c) as [<-|Hc]; [rewrite ceqb_refl; reflexivity|].
        destruct (ceqb_spec c (cls k)); [congruence|reflexivity]. }
      destruct (l_remove_from this q) as [|n rk rv|s rk rv]; [discriminate| |].
      * destruct HR as (H1 & H2 & H2' & st & H3 & H4). injection H3 as <- <- <-.
        eexists. split; [reflexivity|]. split; [|exact I]. apply (Hnew (NL n)); [assumption|exact H2|].
        split; [auto|]. intros e He. rewrite <- Hhk. apply Hh. auto.
      * destruct HR as (H2 & H2' & st & H3 & H4). injection H3 as <- <- <-.
        eexists. split; [reflexivity|]. split; [|exact I]. apply (Hnew (NS s)); [assumption|rewrite H2; reflexivity|].
        specialize (Hh _ H2'). split; [tauto|]. rewrite <- Hhk. apply Hh.
    + eexists. split; [reflexivity|]. split; [|exact I]. unfold ins_w. cbn [ires]. rewrite HF. reflexivity.
Qed.

(** Lifting a slot's change to the branch. *)
Lemma restack_C d p bits (values : list (mnode K V)) x c c' k st b' :
  ww P d p (MC (BIA bits values x)) -> getv bits values (idx d (hash k)) = Some c ->
  restack k st (m_visit c) (m_visit c') ->
  (forall k', sel k' (m_visit (MC b')) = if idx d (hash k') =? idx d (hash k) then sel k' (m_visit c') else sel k' (m_visit (MC (BIA bits values x)))) ->
  restack k st (m_visit (MC (BIA bits values x))) (m_visit (MC b')).
Proof.
  intros HW Hg Hr Hs c0. rewrite Hs, Hr.
  destruct (N.eqb_spec (idx d (hash c0)) (idx d (hash k))) as [Hi|Hi].
  - rewrite (sel_C _ _ _ _ _ _ _ HW), Hi, Hg. reflexivity.
  - destruct (ceqb_spec c0 k) as [->|]; [contradiction|reflexivity].
Qed.

Lemma slot_le d p bits (values : list (mnode K V)) x i c : ww P d p (MC (BIA bits values x)) ->
  getv bits values i = Some c -> lenN (m_visit c) <= x.
Proof.
  intros HW Hg. inversion HW; subst.
  assert (Hi : i < max_ones fw) by (eapply okv_lt; eassumption).
  pose proof (visit_C _ _ 0 _ H4) as H1. cbn [m_visit] in H1. rewrite H1.
  rewrite (range_app 0 i (max_ones fw)) by lia. rewrite (range_cons i) by lia.
  rewrite flat_map_app. cbn [flat_map]. rewrite !lenN_app. rewrite Hg. cbn [ovisit]. lia.
Qed.

Lemma m_insert_w n : forall d (q : Q) k v f replace,
  ww P d (pre d (hashk k)) n -> P (k, v) -> cls q = cls k -> flag_for d (hashk k) f ->
  if checked && hits d (hashk k) n then m_insert n q k v (Some f) replace = Panic
  else exists r, m_insert n q k v (Some f) replace = Ret r /\
         ins_w d (pre d (hashk k)) (m_visit n) k v replace r /\ shape_ok n r.
Proof.
  intros d q k v f replace HW HPk. remember (pre d (hashk k)) as p eqn:Hpe. revert q f Hpe.
  induction HW as [d p s HPs Hs|d p l h HL Hl|d p bits values x Ho Hp Hok Hne Hx Hch IH]; intros q f -> Hq Hf.
  - cbn [hits]. rewrite andb_false_r. cbn [m_insert]. apply s_insert_w; assumption.
  - cbn [hits]. rewrite andb_false_r. cbn [m_insert]. eapply l_insert_w; eassumption.
  - assert (HW : ww P d (pre d (hashk k)) (MC (BIA bits values x))) by (econstructor; eassumption).
    rewrite hits_C. cbn [m_insert unwrap bind]. rewrite bat_map.
    rewrite (proj2 (proj2 Hf) Ho). rewrite (bat_get fw) by exact Hok. unfold get. cbn [bbits bvalues].
    destruct (getv bits values (idx d (hashk k))) as [c|] eqn:Hg.
    + pose proof (Hch _ _ Hg) as HWc. rewrite <- pre_succ in HWc.
      specialize (IH _ _ Hg). rewrite <- pre_succ in IH.
      pose proof (slot_le _ _ _ _ _ _ _ HW Hg) as Hcx.
      assert (HSC : sel (cls k) (m_visit (MC (BIA bits values x))) = sel (cls k) (m_visit c)).
      { rewrite (sel_C _ _ _ _ _ _ _ HW). fold (hashk k). rewrite Hg. reflexivity. }
      (* a new node in the slot *)
      assert (Hup : forall c' x' prev, ww P (d + 1) (pre (d + 1) (hashk k)) c' ->
        lenN (m_visit c') = lenN (m_visit c) + (match prev with Some _ => 0 | None => 1 end) ->
        x' + lenN (m_visit c) = x + lenN (m_visit c') ->
        (exists st, stack_insert k v replace (sel (cls k) (m_visit c)) = Ok (st, prev) /\ restack (cls k) st (m_visit c) (m_visit c')) ->
        exists b', bupdated (BIA bits values x) (2 ^ idx d (hashk k)) c' x' = Ok b' /\
          ins_w d (pre d (hashk k)) (m_visit (MC (BIA bits values x))) k v replace (IC b' k v prev)).
      { intros c' x' prev HWc' Hlen Hx' (st & Hst & Hrs).
        destruct (ww_update P _ _ _ _ _ _ _ c' x' HW Hg) as (b' & Hb & HWb & Hsb); [rewrite <- pre_succ; assumption|assumption|].
        exists b'. split; [exact Hb|]. unfold ins_w. cbn [ires]. split; [reflexivity|]. split; [exact HWb|]. split.
        - pose proof (ww_size P _ _ _ HWb) as Hz. pose proof (ww_size P _ _ _ HW) as Hz0. cbn [m_size bextra] in Hz0.
          assert (Hz' : m_size (MC b') = x').
          { exact (bupdated_extra _ _ _ _ _ Hb). }
          rewrite Hz' in Hz. lia.
        - exists st. rewrite HSC. split; [assumption|]. eapply restack_C; eassumption. }
      destruct (flag_next_cases d (hashk k) f Hf Ho) as [(Hck & Hge & Hnx)|(Hcase & g & Hnx & Hfg)].
      * assert (hbits <=? off (d + 1) = true) as -> by (apply N.leb_le; assumption).
        rewrite Hck. cbn [orb andb]. destruct c; rewrite Hnx; reflexivity.
      * assert (Hh : checked && ((hbits <=? off (d + 1)) || hits (d + 1) (hashk k) c) = checked && hits (d + 1) (hashk k) c).
        { destruct Hcase as [->|Hlt]; [reflexivity|].
          assert (hbits <=? off (d + 1) = false) as -> by (apply N.leb_gt; assumption). reflexivity. }
        rewrite Hh. clear Hh Hcase.
        specialize (IH q g eq_refl Hq Hfg).
        destruct c as [c|l|s]; rewrite Hnx; cbn [bind].
        -- destruct (checked && hits (d + 1) (hashk k) (MC c)).
           { rewrite IH. reflexivity. }
           destruct IH as (r & Hr & Hi & Hsh). rewrite Hr. cbn [bind].
           destruct r as [k' v'|c2 k' v' prev|l2 k' v' prev|s2 k' v' prev]; try contradiction Hsh.
           ++ eexists. split; [reflexivity|]. split; [|exact I].
              unfold ins_w in *. cbn [ires] in *. rewrite HSC. exact Hi.
           ++ unfold ins_w in Hi. cbn [ires] in Hi. destruct Hi as (He & HW2 & Hlen & Hst). injection He as -> ->.
              pose proof (ww_size P _ _ _ HWc) as Hs1. pose proof (ww_size P _ _ _ HW2) as Hs2.
              cbn [m_size] in Hs1, Hs2. unfold usub. rewrite Hs1, Hs2.
              destruct (N.leb_spec (lenN (m_visit (MC c))) (x + lenN (m_visit (MC c2)))); [|lia].
              cbn [bind].
              destruct (Hup (MC c2) (x + lenN (m_visit (MC c2)) - lenN (m_visit (MC c))) prev HW2 Hlen ltac:(lia) Hst) as (b' & Hb & Hi).
              rewrite Hb. cbn [unwrap_ok bind]. eexists. split; [reflexivity|]. split; [exact Hi|exact I].
        -- cbn [hits] in *. rewrite andb_false_r in *. cbn [m_insert] in IH.
           destruct IH as (r & Hr & Hi & Hsh). rewrite Hr. cbn [bind].
           destruct r as [k' v'|c2 k' v' prev|l2 k' v' prev|s2 k' v' prev]; try contradiction Hsh.
           ++ eexists. split; [reflexivity|]. split; [|exact I].
              unfold ins_w in *. cbn [ires] in *. rewrite HSC. exact Hi.
           ++ unfold ins_w in Hi. cbn [ires] in Hi. destruct Hi as (He & HW2 & Hlen & Hst). injection He as -> ->.
              cbn [shape_ok] in Hsh. subst prev.
              destruct (Hup (MC c2) (x + 1) None HW2 Hlen ltac:(lia) Hst) as (b' & Hb & Hi).
              rewrite Hb. cbn [unwrap_ok bind]. eexists. split; [reflexivity|]. split; [exact Hi|exact I].
           ++ unfold ins_w in Hi. cbn [ires] in Hi. destruct Hi as (He & HW2 & Hlen & Hst). injection He as -> ->.
              pose proof (ww_size P _ _ _ HWc) as Hs1. pose proof (ww_size P _ _ _ HW2) as Hs2.
              cbn [m_size] in Hs1, Hs2. unfold usub. rewrite Hs1, Hs2.
              destruct (N.leb_spec (lenN (m_visit (ML l))) (x + lenN (m_visit (ML l2)))); [|lia].
              cbn [bind].
              destruct (Hup (ML l2) (x + lenN (m_visit (ML l2)) - lenN (m_visit (ML l))) prev HW2 Hlen ltac:(lia) Hst) as (b' & Hb & Hi).
              rewrite Hb. cbn [unwrap_ok bind]. eexists. split; [reflexivity|]. split; [exact Hi|exact I].
        -- cbn [hits] in *. rewrite andb_false_r in *. cbn [m_insert] in IH.
           destruct IH as (r & Hr & Hi & Hsh). rewrite Hr. cbn [bind].
           destruct r as [k' v'|c2 k' v' prev|l2 k' v' prev|s2 k' v' prev].
           ++ eexists. split; [reflexivity|]. split; [|exact I].
              unfold ins_w in *. cbn [ires] in *. rewrite HSC. exact Hi.
           ++ unfold ins_w in Hi. cbn [ires] in Hi. destruct Hi as (He & HW2 & Hlen & Hst). injection He as -> ->.
              cbn [shape_ok] in Hsh. subst prev.
              destruct (Hup (MC c2) (x + 1) None HW2 Hlen ltac:(lia) Hst) as (b' & Hb & Hi).
              rewrite Hb. cbn [unwrap_ok bind]. eexists. split; [reflexivity|]. split; [exact Hi|exact I].
           ++ unfold ins_w in Hi. cbn [ires] in Hi. destruct Hi as (He & HW2 & Hlen & Hst). injection He as -> ->.
              cbn [shape_ok] in Hsh. subst prev.
              destruct (Hup (ML l2) (x + 1) None HW2 Hlen ltac:(lia) Hst) as (b' & Hb & Hi).
              rewrite Hb. cbn [unwrap_ok bind]. eexists. split; [reflexivity|]. split; [exact Hi|exact I].
           ++ unfold ins_w in Hi. cbn [ires] in Hi. destruct Hi as (He & HW2 & Hlen & Hst). injection He as -> ->.
              cbn [shape_ok] in Hsh. destruct prev as [e0|]; [|contradiction].
              destruct (Hup (MS s2) x (Some e0) HW2 Hlen ltac:(lia) Hst) as (b' & Hb & Hi).
              rewrite Hb. cbn [unwrap_ok bind]. eexists. split; [reflexivity|]. split; [exact Hi|exact I].
    + rewrite andb_false_r.
      assert (HSC : sel (cls k) (m_visit (MC (BIA bits values x))) = []).
      { rewrite (sel_C _ _ _ _ _ _ _ HW). fold (hashk k). rewrite Hg. reflexivity. }
      destruct (ww_insert_slot P _ _ _ _ _ (idx d (hashk k)) (MS (SN k v)) (x + 1) HW (idx_lt _ _) Hg) as (b' & Hb & HWb & Hsb).
      { rewrite <- pre_succ. constructor; [assumption|reflexivity]. }
      { reflexivity. }
      rewrite Hb. cbn [unwrap_ok bind]. eexists. split; [reflexivity|]. split; [|exact I].
      unfold ins_w. cbn [ires s_key s_value]. rewrite HSC. split; [reflexivity|]. split; [exact HWb|]. split.
      * pose proof (ww_size P _ _ _ HWb) as Hz. pose proof (ww_size P _ _ _ HW) as Hz0. cbn [m_size bextra] in Hz0.
        assert (Hz' : m_size (MC b') = x + 1).
        { exact (binserted_extra _ _ _ _ _ Hb). }
        rewrite Hz' in Hz. lia.
      * exists [(k, v)]. split; [reflexivity|]. intros c. rewrite Hsb.
        destruct (N.eqb_spec (idx d (hash c)) (idx d (hashk k))) as [Hi|Hi].
        -- cbn [m_visit]. unfold s_visit. cbn [s_key s_value]. rewrite sel_cons. change (ecls (k, v)) with (cls k).
           destruct (ceqb_spec (cls k) c) as [<-|Hc]; [rewrite ceqb_refl; reflexivity|].
           destruct (ceqb_spec c (cls k)); [congruence|]. rewrite (sel_C _ _ _ _ _ _ _ HW), Hi, Hg. reflexivity.
        -- destruct (ceqb_spec c (cls k)) as [->|]; [contradiction|reflexivity].
Qed.

(** * remove *)

Definition rem_w (d p : N) (old : list (K * V)) (c : C) (r : remove_result K V) : Prop :=
  match r with
  | RNotFound => sel c old = []
  | RZ k v => old = [(k, v)] /\ cls k = c
  | _ => match rnode r with
         | Some (n', e) => ww P d p n' /\ m_visit n' <> [] /\ lenN (m_visit n') + 1 = lenN old /\
             exists st, sel c old = e :: st /\ restack c st old (m_visit n')
         | None => False
         end
  end.

Lemma m_remove_w n : forall d (q : Q) f,
  ww P d (pre d (hashk q)) n -> flag_for d (hashk q) f ->
  if checked && hits d (hashk q) n then m_remove n q (Some f) = Panic
  else exists r, m_remove n q (Some f) = Ret r /\ rem_w d (pre d (hashk q)) (m_visit n) (cls q) r.
Proof.
  intros d q f HW. remember (pre d (hashk q)) as p eqn:Hpe. revert f Hpe.
  induction HW as [d p s HPs Hs|d p l h HL Hl|d p bits values x Ho Hp Hok Hne Hx Hch IH]; intros f -> Hf.
  - cbn [hits]. rewrite andb_false_r. cbn [m_remove]. unfold s_remove, keqb. eexists. split; [reflexivity|].
    destruct s as [k v]. cbn [m_visit s_key s_value]. unfold s_visit. cbn [s_key s_value].
    destruct (ceqb_spec (cls k) (cls q)) as [He|Hn]; cbn [rem_w].
    + auto.
    + rewrite sel_cons. change (ecls (k, v)) with (cls k). destruct (ceqb_spec (cls k) (cls q)); [contradiction|reflexivity].
  - cbn [hits]. rewrite andb_false_r. cbn [m_remove]. unfold l_remove. eexists. split; [reflexivity|].
    pose proof (l_remove_from_w l q) as HR. pose proof HL as (Hlok & Hh). cbn [m_visit].
    destruct (l_remove_from l q) as [|n k v|s k v]; cbn [rem_w rnode].
    + exact HR.
    + destruct HR as (H1 & H2 & H2' & H3). split; [|split; [apply l_visit_ne|split; assumption]].
      eapply ww_L; [|exact Hl]. split; auto.
    + destruct HR as (H2 & H2' & H3). split; [|split; [discriminate|split; [rewrite H2; reflexivity|assumption]]].
      destruct (Hh _ H2') as [HP Hhs]. constructor; [assumption|]. rewrite <- Hl. f_equal. exact Hhs.
  - assert (HW : ww P d (pre d (hashk q)) (MC (BIA bits values x))) by (econstructor; eassumption).
    rewrite hits_C. cbn [m_remove unwrap bind]. rewrite bat_map.
    rewrite (proj2 (proj2 Hf) Ho). rewrite (bat_get fw) by exact Hok. unfold get. cbn [bbits bvalues].
    destruct (getv bits values (idx d (hashk q))) as [c|] eqn:Hg.
    + pose proof (Hch _ _ Hg) as HWc. rewrite <- pre_succ in HWc.
      specialize (IH _ _ Hg). rewrite <- pre_succ in IH.
      pose proof (slot_le _ _ _ _ _ _ _ HW Hg) as Hcx.
      pose proof (ww_size P _ _ _ HW) as Hz0. cbn [m_size bextra] in Hz0.
      assert (HSC : sel (cls q) (m_visit (MC (BIA bits values x))) = sel (cls q) (m_visit c)).
      { rewrite (sel_C _ _ _ _ _ _ _ HW). fold (hashk q). rewrite Hg. reflexivity. }
      assert (Hup : forall c' e, ww P (d + 1) (pre (d + 1) (hashk q)) c' -> m_visit c' <> [] ->
        lenN (m_visit c') + 1 = lenN (m_visit c) ->
        (exists st, sel (cls q) (m_visit c) = e :: st /\ restack (cls q) st (m_visit c) (m_visit c')) ->
        exists b', usub x 1 = Ret (x - 1) /\ bupdated (BIA bits values x) (2 ^ idx d (hashk q)) c' (x - 1) = Ok b' /\
          rem_w d (pre d (hashk q)) (m_visit (MC (BIA bits values x))) (cls q) (RC b' (fst e) (snd e))).
      { intros c' e HWc' Hne' Hlen (st & Hst & Hrs).
        destruct (ww_update P _ _ _ _ _ _ _ c' (x - 1) HW Hg) as (b' & Hb & HWb & Hsb); [rewrite <- pre_succ; assumption|lia|].
        exists b'. split; [unfold usub; destruct (N.leb_spec 1 x); [reflexivity|lia]|]. split; [exact Hb|].
        cbn [rem_w rnode]. rewrite <- surjective_pairing.
        pose proof (ww_size P _ _ _ HWb) as Hz.
        assert (Hz' : m_size (MC b') = x - 1).
        { exact (bupdated_extra _ _ _ _ _ Hb). }
        rewrite Hz' in Hz. split; [exact HWb|]. split.
        - intros Hnil. rewrite Hnil in Hz. change (lenN (@nil (K * V))) with 0 in Hz.
          destruct (m_visit c') as [|e0 l0]; [contradiction|]. rewrite lenN_cons in Hlen. lia.
        - split; [lia|]. exists st. rewrite HSC. split; [assumption|]. eapply restack_C; eassumption. }
      destruct (flag_next_cases d (hashk q) f Hf Ho) as [(Hck & Hge & Hnx)|(Hcase & g & Hnx & Hfg)].
      * assert (hbits <=? off (d + 1) = true) as -> by (apply N.leb_le; assumption).
        rewrite Hck. cbn [orb andb]. rewrite Hnx. reflexivity.
      * assert (Hh : checked && ((hbits <=? off (d + 1)) || hits (d + 1) (hashk q) c) = checked && hits (d + 1) (hashk q) c).
        { destruct Hcase as [->|Hlt]; [reflexivity|].
          assert (hbits <=? off (d + 1) = false) as -> by (apply N.leb_gt; assumption). reflexivity. }
        rewrite Hh. clear Hh Hcase.
        specialize (IH g eq_refl Hfg). rewrite Hnx. cbn [bind].
        destruct (checked && hits (d + 1) (hashk q) c); [rewrite IH; reflexivity|].
        destruct IH as (r & Hr & Hi). rewrite Hr. cbn [bind].
        destruct r as [|c2 k' v'|l2 k' v'|s2 k' v'|k' v']; cbn [rem_w rnode] in Hi.
        -- eexists. split; [reflexivity|]. cbn [rem_w]. rewrite HSC. exact Hi.
        -- destruct Hi as (H1 & H2 & H3 & H4).
           destruct (Hup (MC c2) (k', v') H1 H2 H3 H4) as (b' & Hz & Hb & Hi).
           pose proof (ww_size_pos P _ _ _ H1 ltac:(lia)) as Hpos. cbn [m_size] in Hpos.
           destruct (N.eqb_spec (bextra c2) 0); [lia|]. rewrite Hz. cbn [bind]. rewrite Hb. cbn [unwrap_ok bind].
           eexists. split; [reflexivity|]. exact Hi.
        -- destruct Hi as (H1 & H2 & H3 & H4).
           destruct (Hup (ML l2) (k', v') H1 H2 H3 H4) as (b' & Hz & Hb & Hi).
           rewrite Hz. cbn [bind]. rewrite Hb. cbn [unwrap_ok bind].
           eexists. split; [reflexivity|]. exact Hi.
        -- destruct Hi as (H1 & H2 & H3 & H4).
           destruct (Hup (MS s2) (k', v') H1 H2 H3 H4) as (b' & Hz & Hb & Hi).
           rewrite Hz. cbn [bind]. rewrite Hb. cbn [unwrap_ok bind].
           eexists. split; [reflexivity|]. exact Hi.
        -- destruct Hi as (H1 & H2).
           assert (HSC1 : sel (cls q) (m_visit (MC (BIA bits values x))) = [(k', v')]).
           { rewrite HSC, H1, sel_cons. change (ecls (k', v')) with (cls k'). rewrite H2, ceqb_refl. reflexivity. }
           rewrite H1, lenN_cons in Hcx. change (lenN (@nil (K * V))) with 0 in Hcx.
           destruct (N.eqb_spec x 1) as [->|Hx1].
           ++ eexists. split; [reflexivity|]. cbn [rem_w]. split; [|exact H2].
              assert (Hin : In (k', v') (m_visit (MC (BIA bits values 1)))).
              { apply (sel_in (cls q)). rewrite HSC1. left. reflexivity. }
              destruct (m_visit (MC (BIA bits values 1))) as [|e0 [|e1 l]]; try discriminate.
              ** destruct Hin as [->|[]]. reflexivity.
              ** rewrite !lenN_cons in Hz0. lia.
           ++ unfold usub. destruct (N.leb_spec 1 x); [|lia]. cbn [bind].
              destruct (ww_remove_slot P _ _ _ _ _ _ _ (x - 1) HW Hg) as (b' & Hb & HWb & Hsb).
              { rewrite H1. cbn. lia. }
              { lia. }
              rewrite Hb. cbn [unwrap_ok bind]. eexists. split; [reflexivity|]. cbn [rem_w rnode].
              assert (Hz' : m_size (MC b') = x - 1).
              { exact (bremoved_extra _ _ _ _ Hb). }
              pose proof (ww_size P _ _ _ HWb) as Hz. rewrite Hz' in Hz.
              split; [exact HWb|]. split; [|split; [lia|]].
              ** intros Hnil. rewrite Hnil in Hz. change (lenN (@nil (K * V))) with 0 in Hz. lia.
              ** exists []. split; [exact HSC1|]. intros c0. rewrite Hsb. fold (hashk q).
                 destruct (N.eqb_spec (idx d (hash c0)) (idx d (hashk q))) as [Hi|Hi].
                 --- destruct (ceqb_spec c0 (cls q)) as [|Hc0]; [reflexivity|].
                     rewrite (sel_C _ _ _ _ _ _ _ HW), Hi, Hg. cbn [ovisit]. rewrite H1, sel_cons.
                     change (ecls (k', v')) with (cls k'). rewrite H2. destruct (ceqb_spec (cls q) c0); [congruence|reflexivity].
                 --- destruct (ceqb_spec c0 (cls q)) as [->|]; [contradiction|reflexivity].
    + rewrite andb_false_r. eexists. split; [reflexivity|]. cbn [rem_w].
      rewrite (sel_C _ _ _ _ _ _ _ HW). fold (hashk q). rewrite Hg. reflexivity.
Qed.

End Query.
End WeakOp.
