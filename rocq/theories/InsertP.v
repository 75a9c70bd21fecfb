(** insert refines the association-list specification. *)
From Coq Require Import NArith Arith List Bool Lia ZifyBool ZifyN ZifyNat Permutation.
From Verif Require Import Base Words WordsP Flag FlagP Bia BiaP Node Spec SpecP Inv NodeP.
Import ListNotations.
Open Scope N_scope.

Section InsertP.
Context {E : Env} {K V : Type} {KK : Key K}.

(** A leaf or collision list all of whose keys have hash [h]. *)
Definition leafy (h : N) (n : mnode K V) : Prop :=
  match n with
  | MC _ => False
  | ML l => lwf h l
  | MS s => hashk (s_key s) = h
  end.

Lemma leafy_wf d h n : leafy h n -> wf d (pre d h) n.
Proof.
  destruct n; cbn; intros H; [contradiction| |].
  - apply wf_L with (h := h); [assumption|reflexivity].
  - constructor. congruence.
Qed.

Lemma leafy_hash h n e : leafy h n -> In e (m_visit n) -> hash (ecls e) = h.
Proof.
  destruct n; cbn; intros H He; [contradiction| |].
  - apply H. assumption.
  - destruct He as [<-|[]]. exact H.
Qed.

Lemma pow2_inj a b : 2 ^ a = 2 ^ b -> a = b.
Proof. intros H. apply (N.pow_inj_r 2) in H; [assumption|lia]. Qed.

Lemma pow2_eqb a b : (2 ^ a =? 2 ^ b) = (a =? b).
Proof.
  destruct (N.eqb_spec a b) as [->|Hn]; [apply N.eqb_refl|].
  apply N.eqb_neq. intros H. apply Hn. apply pow2_inj. assumption.
Qed.

Lemma single_ok {A} n i (a : A) : i < n -> okv n (2 ^ i) [a] /\
  forall j, getv (2 ^ i) [a] j = if i =? j then Some a else None.
Proof.
  intros Hi. split.
  - split; [apply N.pow_lt_mono_r; lia|]. apply count_ones_pow2.
  - intros j. pose proof (getv_push i 0 [] a j (okv_nil i)) as H.
    rewrite N.lor_0_l in H. cbn [app] in H. rewrite H. rewrite getv_nil. reflexivity.
Qed.

Lemma pair_ok {A} n i j (a b : A) : i < j -> j < n -> okv n (N.lor (2 ^ i) (2 ^ j)) [a; b] /\
  forall k, getv (N.lor (2 ^ i) (2 ^ j)) [a; b] k = if j =? k then Some b else if i =? k then Some a else None.
Proof.
  intros Hij Hj. destruct (single_ok j i a Hij) as [H1 H2]. split.
  - apply okv_mono with (N.succ j); [lia|]. apply (okv_push j _ _ b H1).
  - intros k. rewrite <- H2. apply (getv_push j (2 ^ i) [a] b k H1).
Qed.

Lemma leafy_size h n : leafy h n -> m_size n = lenN (m_visit n).
Proof. intros H. eapply wf_size. eapply (leafy_wf 0); eassumption. Qed.

Lemma c_lift_ok fuel : forall d h1 h2 this tf right rf,
  leafy h1 this -> leafy h2 right -> h1 <> h2 -> h1 < 2 ^ hbits -> h2 < 2 ^ hbits ->
  pre d h1 = pre d h2 -> flag_for d h1 tf -> flag_for d h2 rf ->
  hbits <= off d + N.of_nat fuel * log_b fw ->
  exists c, c_lift fuel this tf right rf = Ret c /\ wf d (pre d h1) (MC c) /\
    Permutation (m_visit (MC c)) (m_visit this ++ m_visit right).
Proof.
  induction fuel as [|fuel IH]; intros d h1 h2 this tf right rf HL1 HL2 Hne Hh1 Hh2 Hp Ht Hr Hf.
  - exfalso. apply Hne. rewrite <- (pre_full d h1), <- (pre_full d h2) by (cbn in *; lia). assumption.
  - assert (Hd : off d < hbits).
    { destruct (N.lt_ge_cases (off d) hbits) as [|Hge]; [assumption|].
      exfalso. apply Hne. rewrite <- (pre_full d h1), <- (pre_full d h2) by assumption. assumption. }
    cbn [c_lift].
    rewrite (proj2 (proj2 Ht) Hd), (proj2 (proj2 Hr) Hd), pow2_eqb.
    rewrite (leafy_size h1) by assumption. rewrite (leafy_size h2) by assumption.
    pose proof (leafy_wf (d + 1) _ _ HL1) as HW1. pose proof (leafy_wf (d + 1) _ _ HL2) as HW2.
    destruct (N.eqb_spec (idx d h1) (idx d h2)) as [Hi|Hi].
    + assert (Hp' : pre (d + 1) h1 = pre (d + 1) h2) by (rewrite !pre_succ, Hp, Hi; reflexivity).
      assert (Hd' : off (d + 1) < hbits).
      { destruct (N.lt_ge_cases (off (d + 1)) hbits) as [|Hge]; [assumption|].
        exfalso. apply Hne. rewrite <- (pre_full (d + 1) h1), <- (pre_full (d + 1) h2) by assumption. assumption. }
      rewrite (flag_next_ok d h1) by assumption. cbn [bind unwrap].
      rewrite (flag_next_ok d h2) by assumption. cbn [bind unwrap].
      destruct (IH (d + 1) h1 h2 this (mkFlag h1 (d + 1) (2 ^ idx (d + 1) h1)) right (mkFlag h2 (d + 1) (2 ^ idx (d + 1) h2)))
        as (c & Hc & HW & HP); try assumption; try (apply flag_for_at; assumption).
      { rewrite off_succ. lia. }
      rewrite Hc. cbn [bind].
      destruct (single_ok (max_ones fw) (idx d h1) (MC c) (idx_lt _ _)) as [Hok Hget].
      rewrite (new_bia_ok fw) by exact Hok. cbn [unwrap_ok].
      eexists. split; [reflexivity|]. split.
      * constructor; try assumption.
        -- apply pre_lt.
        -- left. discriminate.
        -- cbn [map concat]. rewrite app_nil_r. rewrite <- lenN_app. unfold lenN. rewrite (Permutation_length HP). reflexivity.
        -- intros i c1. rewrite Hget. destruct (N.eqb_spec (idx d h1) i) as [<-|]; [|discriminate].
           intros [= <-]. rewrite <- pre_succ. assumption.
      * cbn [m_visit map concat]. rewrite app_nil_r. exact HP.
    + rewrite bit_insert_pow2. rewrite N.pow2_bits_eqb. destruct (N.eqb_spec (idx d h1) (idx d h2)); [contradiction|].
      cbn [unwrap_ok bind].
      rewrite bit_index_pow2, testbit_lor_pow2, N.pow2_bits_true. cbn [orb unwrap_ok bind].
      rewrite rank_lor_pow2, rank_pow2 by (rewrite N.pow2_bits_eqb; apply N.eqb_neq; assumption).
      rewrite N.ltb_irrefl, N.add_0_l.
      assert (Hgen : forall i1 i2 c1 c2 g1 g2, i1 < i2 -> i2 < max_ones fw ->
        leafy g1 c1 -> leafy g2 c2 -> pre d g1 = pre d h1 -> pre d g2 = pre d h1 -> idx d g1 = i1 -> idx d g2 = i2 ->
        forall size bits, size = lenN (m_visit c1) + lenN (m_visit c2) -> bits = N.lor (2 ^ i1) (2 ^ i2) ->
        exists c, unwrap_ok (new_bia bits [c1; c2] size) = Ret c /\ wf d (pre d h1) (MC c) /\
          m_visit (MC c) = m_visit c1 ++ m_visit c2).
      { intros i1 i2 c1 c2 g1 g2 Hlt Hi2 HLa HLb Hpa Hpb Hia Hib size bits Hs Hbits. subst bits.
        destruct (pair_ok (max_ones fw) i1 i2 c1 c2 Hlt Hi2) as [Hok Hget].
        rewrite (new_bia_ok fw) by exact Hok. cbn [unwrap_ok].
        eexists. split; [reflexivity|]. split.
        - constructor; try assumption.
          + apply pre_lt.
          + left. discriminate.
          + cbn [map concat]. rewrite app_nil_r, lenN_app. assumption.
          + intros i c0. rewrite Hget. destruct (N.eqb_spec i2 i) as [<-|]; [|destruct (N.eqb_spec i1 i) as [<-|]; [|discriminate]];
              intros [= <-].
            * rewrite <- Hpb, <- Hib, <- pre_succ. apply leafy_wf. assumption.
            * rewrite <- Hpa, <- Hia, <- pre_succ. apply leafy_wf. assumption.
        - cbn [m_visit map concat]. rewrite app_nil_r. reflexivity. }
      destruct (N.ltb_spec (idx d h2) (idx d h1)).
      * change (1 =? 0) with false. cbn iota.
        edestruct (Hgen (idx d h2) (idx d h1) right this h2 h1) as (c & Hc & HW & HV);
          [assumption|apply idx_lt|assumption|assumption|auto|auto|auto|auto| | |].
        3:{ exists c. split; [exact Hc|]. split; [exact HW|]. rewrite HV. apply Permutation_app_comm. }
        -- lia.
        -- apply N.lor_comm.
      * change (0 =? 0) with true. cbn iota.
        edestruct (Hgen (idx d h1) (idx d h2) this right h1 h2) as (c & Hc & HW & HV);
          [lia|apply idx_lt|assumption|assumption|auto|auto|auto|auto| | |].
        3:{ exists c. split; [exact Hc|]. split; [exact HW|]. rewrite HV. reflexivity. }
        -- lia.
        -- reflexivity.
Qed.

Lemma lift_fuel_ok d : hbits <= off d + N.of_nat lift_fuel * log_b fw.
Proof.
  unfold lift_fuel. rewrite N2Nat.id. unfold hbits. pose proof (log_b_pos fw). nia.
Qed.

Lemma cnode_lift_ok d h1 h2 this tf right rf :
  leafy h1 this -> leafy h2 right -> h1 <> h2 -> h1 < 2 ^ hbits -> h2 < 2 ^ hbits ->
  pre d h1 = pre d h2 -> flag_for d h1 tf -> flag_for d h2 rf ->
  exists c, cnode_lift this tf right rf = Ret c /\ wf d (pre d h1) (MC c) /\
    Permutation (m_visit (MC c)) (m_visit this ++ m_visit right).
Proof. intros. eapply c_lift_ok; try eassumption. apply lift_fuel_ok. Qed.

Lemma neq_off d h1 h2 : h1 <> h2 -> h1 < 2 ^ hbits -> h2 < 2 ^ hbits -> pre d h1 = pre d h2 -> off d < hbits.
Proof.
  intros Hne H1 H2 Hp. destruct (N.lt_ge_cases (off d) hbits) as [|Hge]; [assumption|].
  exfalso. apply Hne. rewrite <- (pre_full d h1), <- (pre_full d h2) by assumption. assumption.
Qed.

(** * Results of insert *)

Definition ires (r : insert_result K V) : option (mnode K V * (K * V) * option (K * V)) :=
  match r with
  | IFound _ _ => None
  | IC c k v prev => Some (MC c, (k, v), prev)
  | IL l k v prev => Some (ML l, (k, v), prev)
  | IS s k v prev => Some (MS s, (k, v), prev)
  end.

Definition ins_ok (d p : N) (old : list (K * V)) (k : K) (v : V) (replace : bool) (r : insert_result K V) : Prop :=
  match ires r with
  | None => match r with IFound k' v' => replace = false /\ lookup (cls k) old = Some (k', v') | _ => False end
  | Some (n', e, prev) =>
      e = (k, v) /\ prev = lookup (cls k) old /\ (replace = true \/ prev = None) /\
      wf d p n' /\ Permutation (m_visit n') ((k, v) :: without (cls k) old)
  end.

Definition shape_ok (n : mnode K V) (r : insert_result K V) : Prop :=
  match n, r with
  | MC _, IL _ _ _ _ | MC _, IS _ _ _ _ | ML _, IS _ _ _ _ => False
  | ML _, IC _ _ _ prev | MS _, IC _ _ _ prev | MS _, IL _ _ _ prev => prev = None
  | MS _, IS _ _ _ prev => prev <> None
  | _, _ => True
  end.

Lemma hashk_lt {Q} {KQ : Key Q} (k : Q) : hashk k < 2 ^ hbits.
Proof. apply hash_lt. Qed.

Lemma l_lift_ok d h1 (nx : lnext K V) k v f :
  leafy h1 (next_mnode nx) -> pre d h1 = pre d (hashk k) -> flag_for d (hashk k) f ->
  lookup (cls k) (m_visit (next_mnode nx)) = None ->
  exists r, l_lift nx k v f = Ret r /\ ins_ok d (pre d (hashk k)) (m_visit (next_mnode nx)) k v false r /\
    match r with IC _ _ _ _ | IL _ _ _ _ => True | _ => False end /\
    (h1 = hashk k -> exists l, r = IL l k v None).
Proof.
  intros HL Hp Hf Hn.
  assert (Hk : hashk (next_key nx) = h1).
  { destruct nx as [l|s]; cbn in *; [|assumption]. apply (proj2 (proj2 HL) (l_key l, l_value l)).
    destruct l; left; reflexivity. }
  assert (Hh1 : h1 < 2 ^ hbits) by (rewrite <- Hk; apply hashk_lt).
  unfold l_lift. rewrite Hk. destruct Hf as (Hfh & Hfd & Hfb). rewrite Hfh, Hfd.
  destruct (N.eqb_spec h1 (hashk k)) as [He|Hne].
  - eexists. split; [reflexivity|]. split; [|split; [exact I|]].
    2:{ intros _. exists (l_new k v nx). destruct nx; reflexivity. }
    unfold ins_ok. cbn [ires]. rewrite Hn. rewrite without_id by assumption.
    split; [destruct nx; reflexivity|]. split; [reflexivity|]. split; [auto|]. split.
    + apply wf_L with (h := hashk k); [|reflexivity]. split; [|split].
      * apply lok_new. destruct nx; [apply HL|exact I].
      * rewrite l_visit_next. apply uniq_cons. split; [exact Hn|].
        eapply wf_uniq. apply (leafy_wf 0). exact HL.
      * rewrite l_visit_next. intros e [<-|Hi]; [reflexivity|]. rewrite <- He. eapply leafy_hash; eassumption.
    + cbn [m_visit]. rewrite l_visit_next. reflexivity.
  - pose proof (neq_off d _ _ Hne Hh1 (hashk_lt k) Hp) as Hd.
    rewrite flag_at_ok by assumption. cbn [bind unwrap].
    destruct (cnode_lift_ok d h1 (hashk k) (next_mnode nx) (mkFlag h1 d (2 ^ idx d h1)) (MS (SN k v)) f)
      as (c & Hc & HW & HP); try assumption; try reflexivity; try apply hashk_lt.
    { apply flag_for_at. assumption. }
    { repeat split; assumption. }
    rewrite Hc. cbn [bind].
    eexists. split; [reflexivity|]. split; [|split; [exact I|contradiction]].
    unfold ins_ok. cbn [ires s_key s_value]. rewrite Hn. rewrite without_id by assumption.
    split; [reflexivity|]. split; [reflexivity|]. split; [auto|]. split.
    + rewrite <- Hp. exact HW.
    + rewrite HP. cbn [m_visit s_visit s_key s_value]. symmetry. apply Permutation_cons_append.
Qed.

Section Query.
Context {Q : Type} {KQ : Key Q}.

(** Removing from a collision list. *)
Lemma l_remove_from_ok (l : lnode K V) (q : Q) :
  match l_remove_from l q with
  | LRNotFound => lookup (cls q) (l_visit l) = None
  | LRL n k v => lookup (cls q) (l_visit l) = Some (k, v) /\ (lok l -> lok n) /\
      (uniq (l_visit l) -> l_visit n = without (cls q) (l_visit l))
  | LRS s k v => lookup (cls q) (l_visit l) = Some (k, v) /\
      (uniq (l_visit l) -> s_visit s = without (cls q) (l_visit l))
  end.
Proof.
  induction l as [k v n IH z|k v s z]; cbn [l_remove_from l_visit].
  - rewrite lookup_cons. unfold keqb. change (ecls (k, v)) with (cls k).
    destruct (ceqb_spec (cls k) (cls q)) as [He|Hne].
    + split; [reflexivity|]. split; [cbn; tauto|]. rewrite uniq_cons. intros [Hn Hu].
      rewrite without_cons. change (ecls (k, v)) with (cls k). rewrite He, ceqb_refl.
      symmetry. apply without_id. rewrite <- He. exact Hn.
    + destruct (l_remove_from n q) as [|n' k' v'|s' k' v']; [assumption| |].
      * destruct IH as (H1 & H2 & H3). split; [assumption|]. split.
        -- cbn [lok l_new]. intros [-> Hl]. auto.
        -- rewrite uniq_cons. intros [Hn Hu]. rewrite l_visit_next. cbn [next_mnode m_visit]. rewrite without_cons.
           change (ecls (k, v)) with (cls k). destruct (ceqb_spec (cls k) (cls q)); [contradiction|].
           rewrite H3 by assumption. reflexivity.
      * destruct IH as (H1 & H3). split; [assumption|]. split; [cbn; auto|].
        rewrite uniq_cons. intros [Hn Hu]. rewrite l_visit_next. cbn [next_mnode m_visit]. rewrite without_cons.
        change (ecls (k, v)) with (cls k). destruct (ceqb_spec (cls k) (cls q)); [contradiction|].
        rewrite H3 by assumption. reflexivity.
  - destruct s as [k1 v1]. unfold s_visit. cbn [s_key s_value]. rewrite !lookup_cons. unfold keqb.
    change (ecls (k, v)) with (cls k). change (ecls (k1, v1)) with (cls k1).
    destruct (ceqb_spec (cls k) (cls q)) as [He|Hne].
    + split; [reflexivity|]. rewrite uniq_cons. intros [Hn Hu]. rewrite without_cons.
      change (ecls (k, v)) with (cls k). rewrite He, ceqb_refl.
      symmetry. apply without_id. rewrite <- He. exact Hn.
    + destruct (ceqb_spec (cls k1) (cls q)) as [He1|Hne1]; [|reflexivity].
      split; [reflexivity|]. intros _. rewrite !without_cons.
      change (ecls (k, v)) with (cls k). change (ecls (k1, v1)) with (cls k1).
      rewrite He1, ceqb_refl. destruct (ceqb_spec (cls k) (cls q)); [contradiction|]. reflexivity.
Qed.

Lemma s_insert_ok d (this : snode K V) (q : Q) k v f replace :
  cls q = cls k -> pre d (hashk (s_key this)) = pre d (hashk k) -> flag_for d (hashk k) f ->
  exists r, s_insert this q k v (Some f) replace = Ret r /\
    ins_ok d (pre d (hashk k)) (s_visit this) k v replace r /\ shape_ok (MS this) r.
Proof.
  intros Hq Hp Hf. unfold s_insert, keqb. rewrite Hq.
  destruct this as [k1 v1]. cbn [s_key s_value] in *. destruct (ceqb_spec (cls k1) (cls k)) as [He|Hne].
  - destruct replace; (eexists; split; [reflexivity|]); unfold ins_ok, s_visit; cbn [ires s_key s_value].
    + rewrite lookup_cons, without_cons. change (ecls (k1, v1)) with (cls k1). rewrite He, ceqb_refl.
      repeat split; auto; [constructor; reflexivity|discriminate].
    + rewrite lookup_cons. change (ecls (k1, v1)) with (cls k1). rewrite He, ceqb_refl. cbn. auto.
  - cbn [unwrap bind].
    destruct (l_lift_ok d (hashk k1) (NS (SN k1 v1)) k v f) as (r & Hr & Hok & Hs & _); try assumption.
    + reflexivity.
    + cbn. change (ecls (k1, v1)) with (cls k1). destruct (ceqb_spec (cls k1) (cls k)); [contradiction|reflexivity].
    + exists r. split; [exact Hr|].
      assert (Hn : lookup (cls k) (m_visit (MS (SN k1 v1))) = None).
      { cbn. change (ecls (k1, v1)) with (cls k1). destruct (ceqb_spec (cls k1) (cls k)); [contradiction|reflexivity]. }
      cbn [next_mnode] in Hok. unfold ins_ok in *. change (s_visit {| s_key := k1; s_value := v1 |}) with (m_visit (MS (SN k1 v1))).
      rewrite Hn in *.
      destruct r; try contradiction; cbn [ires shape_ok] in *; destruct Hok as (H1 & H2 & H3 & H4); tauto.
Qed.

Lemma l_insert_ok d h (this : lnode K V) (q : Q) k v f replace :
  lwf h this -> cls q = cls k -> pre d h = pre d (hashk k) -> flag_for d (hashk k) f ->
  exists r, l_insert this q k v (Some f) replace = Ret r /\
    ins_ok d (pre d (hashk k)) (l_visit this) k v replace r /\ shape_ok (ML this) r.
Proof.
  intros HL Hq Hp Hf. unfold l_insert. rewrite l_find_ok, Hq.
  destruct (lookup (cls k) (l_visit this)) as [[fk fv]|] eqn:HF.
  - destruct replace.
    + pose proof (l_remove_from_ok this q) as HR. rewrite Hq, HF in HR.
      destruct HL as (Hlok & Hu & Hh).
      assert (Hhk : h = hashk k).
      { apply lookup_in in HF. destruct HF as [Hi Hc]. rewrite <- (Hh _ Hi). unfold hashk. rewrite Hc. reflexivity. }
      assert (Hnew : forall nx, m_visit (next_mnode nx) = without (cls k) (l_visit this) ->
         (match nx with NL l => lok l | NS _ => True end) ->
         wf d (pre d (hashk k)) (ML (l_new k v nx)) /\
         Permutation (m_visit (ML (l_new k v nx))) ((k, v) :: without (cls k) (l_visit this))).
      { intros nx Hv Hk. cbn [m_visit]. rewrite l_visit_next, Hv. split; [|reflexivity].
        apply wf_L with (h := hashk k); [|reflexivity]. split; [apply lok_new; assumption|].
        rewrite l_visit_next, Hv. split.
        - apply uniq_insert. assumption.
        - intros e [<-|Hi]; [reflexivity|]. apply without_in in Hi. rewrite <- Hhk. apply Hh. apply Hi. }
      destruct (l_remove_from this q) as [|n rk rv|s rk rv]; [discriminate| |].
      * destruct HR as (H1 & H2 & H3). injection H1 as -> ->.
        destruct (Hnew (NL n) (H3 Hu) (H2 Hlok)) as [HW HP].
        eexists. split; [reflexivity|]. split; [|exact I]. unfold ins_ok. cbn [ires]. rewrite HF.
        repeat split; auto.
      * destruct HR as (H1 & H3). injection H1 as -> ->.
        destruct (Hnew (NS s) (H3 Hu) I) as [HW HP].
        eexists. split; [reflexivity|]. split; [|exact I]. unfold ins_ok. cbn [ires]. rewrite HF.
        repeat split; auto.
    + eexists. split; [reflexivity|]. split; [|exact I]. unfold ins_ok. cbn [ires]. rewrite HF. auto.
  - cbn [unwrap bind].
    destruct (l_lift_ok d h (NL this) k v f) as (r & Hr & Hok & Hs & _); try assumption.
    exists r. split; [exact Hr|]. split.
    + unfold ins_ok in *. cbn [next_mnode m_visit] in Hok. rewrite HF in Hok |- *.
      destruct (ires r) as [[[n' e] prev]|]; [|destruct r; try contradiction].
      destruct Hok as (H1 & H2 & [H3|H3] & H4); [discriminate|]. auto.
    + unfold ins_ok in Hok. cbn [next_mnode m_visit] in Hok. rewrite HF in Hok.
      destruct r; cbn in *; try contradiction; auto. tauto.
Qed.

End Query.
End InsertP.
