(** insert and remove on whole tries. *)
From Coq Require Import NArith Arith List Bool Lia ZifyBool ZifyN ZifyNat Permutation.
From Verif Require Import Base Words WordsP Flag FlagP Bia BiaP Node Spec SpecP Inv NodeP InsertP.
Import ListNotations.
Open Scope N_scope.

Section TrieP.
Context {E : Env} {K V : Type} {KK : Key K}.

(** [hits d h n]: the path of hash [h] through [n] (standing at depth [d])
    goes through an occupied slot of a branch that uses the last slice of the
    hash. *)
Fixpoint hits (d h : N) (n : mnode K V) {struct n} : bool :=
  match n with
  | MC (BIA bits values _) =>
      match getv bits (map (fun c => fun d' => hits d' h c) values) (idx d h) with
      | Some rec => (hbits <=? off (d + 1)) || rec (d + 1)
      | None => false
      end
  | _ => false
  end.

Lemma getv_map {A B} (f : A -> B) bits values i : getv bits (map f values) i = option_map f (getv bits values i).
Proof. unfold getv. destruct (N.testbit bits i); [apply nthN_map|reflexivity]. Qed.

Lemma hits_C d h bits values x :
  hits d h (MC (BIA bits values x)) =
  match getv bits values (idx d h) with
  | Some c => (hbits <=? off (d + 1)) || hits (d + 1) h c
  | None => false
  end.
Proof. cbn [hits]. rewrite getv_map. destruct (getv bits values (idx d h)); reflexivity. Qed.

(** Lifting the result for a child to the branch. *)
Lemma perm_slot d i (c : C) (vc vc' rest all all' : list (K * V)) (e : K * V) :
  (forall e, In e rest -> idx d (hash (ecls e)) <> i) -> idx d (hash c) = i ->
  Permutation all (vc ++ rest) -> Permutation all' (vc' ++ rest) ->
  Permutation vc' (e :: without c vc) -> Permutation all' (e :: without c all).
Proof.
  intros Hr Hi HP HP' HV. rewrite HP', HV. cbn [app]. constructor.
  rewrite (without_perm c _ _ HP), without_app. apply Permutation_app_head.
  rewrite without_id; [reflexivity|]. eapply lookup_rest; eassumption.
Qed.

Lemma perm_slot_rem d i (c : C) (vc vc' rest all all' : list (K * V)) :
  (forall e, In e rest -> idx d (hash (ecls e)) <> i) -> idx d (hash c) = i ->
  Permutation all (vc ++ rest) -> Permutation all' (vc' ++ rest) ->
  Permutation vc' (without c vc) -> Permutation all' (without c all).
Proof.
  intros Hr Hi HP HP' HV. rewrite HP', HV.
  rewrite (without_perm c _ _ HP), without_app. apply Permutation_app_head.
  rewrite without_id; [reflexivity|]. eapply lookup_rest; eassumption.
Qed.

Section Query.
Context {Q : Type} {KQ : Key Q}.

(** Replacing slot content [c] by the node of a successful insertion into it. *)
Lemma insert_update d bits (values : list (mnode K V)) x c c' k v prev x' :
  wf d (pre d (hashk k)) (MC (BIA bits values x)) ->
  getv bits values (idx d (hashk k)) = Some c ->
  wf (d + 1) (pre (d + 1) (hashk k)) c' ->
  prev = lookup (cls k) (m_visit c) ->
  Permutation (m_visit c') ((k, v) :: without (cls k) (m_visit c)) ->
  x' + lenN (m_visit c) = x + lenN (m_visit c') ->
  exists b', bupdated (BIA bits values x) (2 ^ idx d (hashk k)) c' x' = Ok b' /\
    wf d (pre d (hashk k)) (MC b') /\
    prev = lookup (cls k) (m_visit (MC (BIA bits values x))) /\
    Permutation (m_visit (MC b')) ((k, v) :: without (cls k) (m_visit (MC (BIA bits values x)))).
Proof.
  intros HW Hg HW' Hp HP Hx.
  destruct (wf_update _ _ _ _ _ _ _ c' x' HW Hg) as (b' & Hb & HWb & rest & Hr & HP1 & HP2); try assumption.
  { rewrite <- pre_succ. assumption. }
  exists b'. split; [exact Hb|]. split; [exact HWb|]. split.
  - rewrite (lookup_C _ _ _ _ _ _ HW). unfold hashk in Hg. rewrite Hg. exact Hp.
  - eapply perm_slot; try eassumption. reflexivity.
Qed.

Lemma ins_len (c c' : mnode K V) k v : uniq (m_visit c) ->
  Permutation (m_visit c') ((k, v) :: without (cls k) (m_visit c)) ->
  lenN (m_visit c') = match lookup (cls k) (m_visit c) with Some _ => lenN (m_visit c) | None => lenN (m_visit c) + 1 end.
Proof.
  intros Hu HP. unfold lenN at 1. rewrite (Permutation_length HP). cbn [length].
  destruct (lookup (cls k) (m_visit c)) eqn:HL.
  - pose proof (len_without_some _ _ _ Hu HL). unfold lenN in *. lia.
  - rewrite without_id by assumption. unfold lenN. lia.
Qed.

Lemma m_insert_ok n : forall d (q : Q) k v f replace,
  wf d (pre d (hashk k)) n -> cls q = cls k -> flag_for d (hashk k) f ->
  if checked && hits d (hashk k) n then m_insert n q k v (Some f) replace = Panic
  else exists r, m_insert n q k v (Some f) replace = Ret r /\
         ins_ok d (pre d (hashk k)) (m_visit n) k v replace r /\ shape_ok n r.
Proof.
  intros d q k v f replace HW. remember (pre d (hashk k)) as p eqn:Hpe. revert q f Hpe.
  induction HW as [d p s Hs|d p l h HL Hl|d p bits values x Ho Hp Hok Hne Hx Hch IH]; intros q f -> Hq Hf.
  - cbn [hits]. rewrite andb_false_r. cbn [m_insert].
    destruct (s_insert_ok d s q k v f replace Hq Hs Hf) as (r & Hr & Hi & Hsh). exists r. auto.
  - cbn [hits]. rewrite andb_false_r. cbn [m_insert].
    destruct (l_insert_ok d h l q k v f replace HL Hq Hl Hf) as (r & Hr & Hi & Hsh). exists r. auto.
  - assert (HW : wf d (pre d (hashk k)) (MC (BIA bits values x))) by (econstructor; eassumption).
    rewrite hits_C. cbn [m_insert unwrap bind]. rewrite bat_map.
    rewrite (proj2 (proj2 Hf) Ho). rewrite (bat_get fw) by exact Hok. unfold get. cbn [bbits bvalues].
    destruct (getv bits values (idx d (hashk k))) as [c|] eqn:Hg.
    + pose proof (Hch _ _ Hg) as HWc. rewrite <- pre_succ in HWc.
      specialize (IH _ _ Hg). rewrite <- pre_succ in IH.
      pose proof (wf_uniq _ _ _ HWc) as Huc.
      assert (Hcx : lenN (m_visit c) <= x).
      { destruct (slot_split _ _ _ _ _ _ HW (idx_lt d (hashk k))) as (rest & _ & HP).
        specialize (HP bits values x Hok (fun _ _ => eq_refl)). rewrite Hg in HP. cbn [ovisit] in HP.
        apply Permutation_length in HP. rewrite app_length in HP. subst x. cbn [m_visit] in HP. unfold lenN in *. lia. }
      destruct (flag_next_cases d (hashk k) f Hf Ho) as [(Hck & Hge & Hnx)|(Hcase & g & Hnx & Hfg)].
      * assert (hbits <=? off (d + 1) = true) as -> by (apply N.leb_le; assumption).
        rewrite Hck. cbn [orb andb]. destruct c; rewrite Hnx; reflexivity.
      * assert (Hh : checked && ((hbits <=? off (d + 1)) || hits (d + 1) (hashk k) c) = checked && hits (d + 1) (hashk k) c).
        { destruct Hcase as [->|Hlt]; [reflexivity|].
          assert (hbits <=? off (d + 1) = false) as -> by (apply N.leb_gt; assumption). reflexivity. }
        rewrite Hh. clear Hh Hcase.
        specialize (IH q g eq_refl Hq Hfg).
        destruct c as [c|l|s]; rewrite Hnx; cbn [bind].
        -- destruct (checked && hits (d + 1) (hashk k) (MC c)).
           { rewrite IH. reflexivity. }
           destruct IH as (r & Hr & Hi & Hsh). rewrite Hr. cbn [bind].
           destruct r as [k' v'|c2 k' v' prev|l2 k' v' prev|s2 k' v' prev]; try contradiction Hsh.
           ++ eexists. split; [reflexivity|]. split; [|exact I].
              unfold ins_ok in *. cbn [ires] in *. rewrite (lookup_C _ _ _ _ _ _ HW). fold (hashk k). rewrite Hg. exact Hi.
           ++ unfold ins_ok in Hi. cbn [ires] in Hi. destruct Hi as (He & Hpv & Hrp & HW2 & HP2).
              pose proof (wf_size _ _ _ HWc) as Hs1. pose proof (wf_size _ _ _ HW2) as Hs2.
              cbn [m_size] in Hs1, Hs2. unfold usub. rewrite Hs1, Hs2.
              destruct (N.leb_spec (lenN (m_visit (MC c))) (x + lenN (m_visit (MC c2)))); [|lia].
              cbn [bind].
              destruct (insert_update d bits values x (MC c) (MC c2) k v prev (x + lenN (m_visit (MC c2)) - lenN (m_visit (MC c))) HW Hg HW2 Hpv HP2)
                as (b' & Hb & HWb & Hpb & HPb); [lia|].
              rewrite Hb. cbn [unwrap_ok bind]. eexists. split; [reflexivity|]. split; [|exact I].
              unfold ins_ok. cbn [ires]. auto.
        -- cbn [hits] in *. rewrite andb_false_r in *. cbn [m_insert] in IH.
           destruct IH as (r & Hr & Hi & Hsh). rewrite Hr. cbn [bind].
           destruct r as [k' v'|c2 k' v' prev|l2 k' v' prev|s2 k' v' prev]; try contradiction Hsh.
           ++ eexists. split; [reflexivity|]. split; [|exact I].
              unfold ins_ok in *. cbn [ires] in *. rewrite (lookup_C _ _ _ _ _ _ HW). fold (hashk k). rewrite Hg. exact Hi.
           ++ unfold ins_ok in Hi. cbn [ires] in Hi. destruct Hi as (He & Hpv & Hrp & HW2 & HP2).
              cbn [shape_ok] in Hsh. subst prev.
              pose proof (ins_len _ _ _ _ Huc HP2) as Hlen. rewrite Hsh in Hlen.
              destruct (insert_update d bits values x (ML l) (MC c2) k v _ (x + 1) HW Hg HW2 (eq_sym Hsh) HP2)
                as (b' & Hb & HWb & Hpb & HPb); [lia|].
              rewrite Hb. cbn [unwrap_ok bind]. eexists. split; [reflexivity|]. split; [|exact I].
              unfold ins_ok. cbn [ires]. rewrite Hsh. auto.
           ++ unfold ins_ok in Hi. cbn [ires] in Hi. destruct Hi as (He & Hpv & Hrp & HW2 & HP2).
              pose proof (wf_size _ _ _ HWc) as Hs1. pose proof (wf_size _ _ _ HW2) as Hs2.
              cbn [m_size] in Hs1, Hs2. unfold usub. rewrite Hs1, Hs2.
              destruct (N.leb_spec (lenN (m_visit (ML l))) (x + lenN (m_visit (ML l2)))); [|lia].
              cbn [bind].
              destruct (insert_update d bits values x (ML l) (ML l2) k v prev (x + lenN (m_visit (ML l2)) - lenN (m_visit (ML l))) HW Hg HW2 Hpv HP2)
                as (b' & Hb & HWb & Hpb & HPb); [lia|].
              rewrite Hb. cbn [unwrap_ok bind]. eexists. split; [reflexivity|]. split; [|exact I].
              unfold ins_ok. cbn [ires]. auto.
        -- cbn [hits] in *. rewrite andb_false_r in *. cbn [m_insert] in IH.
           destruct IH as (r & Hr & Hi & Hsh). rewrite Hr. cbn [bind].
           destruct r as [k' v'|c2 k' v' prev|l2 k' v' prev|s2 k' v' prev].
           ++ eexists. split; [reflexivity|]. split; [|exact I].
              unfold ins_ok in *. cbn [ires] in *. rewrite (lookup_C _ _ _ _ _ _ HW). fold (hashk k). rewrite Hg. exact Hi.
           ++ unfold ins_ok in Hi. cbn [ires] in Hi. destruct Hi as (He & Hpv & Hrp & HW2 & HP2).
              cbn [shape_ok] in Hsh. subst prev.
              pose proof (ins_len _ _ _ _ Huc HP2) as Hlen. rewrite Hsh in Hlen.
              destruct (insert_update d bits values x (MS s) (MC c2) k v _ (x + 1) HW Hg HW2 (eq_sym Hsh) HP2)
                as (b' & Hb & HWb & Hpb & HPb); [lia|].
              rewrite Hb. cbn [unwrap_ok bind]. eexists. split; [reflexivity|]. split; [|exact I].
              unfold ins_ok. cbn [ires]. rewrite Hsh. auto.
           ++ unfold ins_ok in Hi. cbn [ires] in Hi. destruct Hi as (He & Hpv & Hrp & HW2 & HP2).
              cbn [shape_ok] in Hsh. subst prev.
              pose proof (ins_len _ _ _ _ Huc HP2) as Hlen. rewrite Hsh in Hlen.
              destruct (insert_update d bits values x (MS s) (ML l2) k v _ (x + 1) HW Hg HW2 (eq_sym Hsh) HP2)
                as (b' & Hb & HWb & Hpb & HPb); [lia|].
              rewrite Hb. cbn [unwrap_ok bind]. eexists. split; [reflexivity|]. split; [|exact I].
              unfold ins_ok. cbn [ires]. rewrite Hsh. auto.
           ++ unfold ins_ok in Hi. cbn [ires] in Hi. destruct Hi as (He & Hpv & Hrp & HW2 & HP2).
              cbn [shape_ok] in Hsh.
              pose proof (ins_len _ _ _ _ Huc HP2) as Hlen. rewrite <- Hpv in Hlen. destruct prev as [e0|]; [|contradiction].
              destruct (insert_update d bits values x (MS s) (MS s2) k v _ x HW Hg HW2 Hpv HP2)
                as (b' & Hb & HWb & Hpb & HPb); [lia|].
              rewrite Hb. cbn [unwrap_ok bind]. eexists. split; [reflexivity|]. split; [|exact I].
              unfold ins_ok. cbn [ires]. auto.
    + rewrite andb_false_r.
      destruct (wf_insert_slot _ _ _ _ _ (idx d (hashk k)) (MS (SN k v)) (x + 1) HW (idx_lt _ _) Hg) as (b' & Hb & HWb & HPb).
      { rewrite <- pre_succ. constructor. reflexivity. }
      { reflexivity. }
      rewrite Hb. cbn [unwrap_ok bind]. eexists. split; [reflexivity|]. split; [|exact I].
      assert (Hn : lookup (cls k) (m_visit (MC (BIA bits values x))) = None).
      { rewrite (lookup_C _ _ _ _ _ _ HW). fold (hashk k). rewrite Hg. reflexivity. }
      unfold ins_ok. cbn [ires s_key s_value]. rewrite Hn. rewrite without_id by assumption.
      repeat split; auto.
Qed.
(** * remove *)

Definition rnode (r : remove_result K V) : option (mnode K V * (K * V)) :=
  match r with
  | RC c k v => Some (MC c, (k, v))
  | RL l k v => Some (ML l, (k, v))
  | RS s k v => Some (MS s, (k, v))
  | _ => None
  end.

Definition rem_ok (d p : N) (old : list (K * V)) (c : C) (r : remove_result K V) : Prop :=
  match r with
  | RNotFound => lookup c old = None
  | RZ k v => lookup c old = Some (k, v) /\ old = [(k, v)]
  | _ => match rnode r with
         | Some (n', e) => lookup c old = Some e /\ wf d p n' /\ m_visit n' <> [] /\
                           Permutation (m_visit n') (without c old)
         | None => False
         end
  end.

Lemma remove_update d bits (values : list (mnode K V)) x c c' e (q : Q) :
  wf d (pre d (hashk q)) (MC (BIA bits values x)) ->
  getv bits values (idx d (hashk q)) = Some c ->
  wf (d + 1) (pre (d + 1) (hashk q)) c' ->
  lookup (cls q) (m_visit c) = Some e ->
  m_visit c' <> [] ->
  Permutation (m_visit c') (without (cls q) (m_visit c)) ->
  exists b' size, usub x 1 = Ret size /\ bupdated (BIA bits values x) (2 ^ idx d (hashk q)) c' size = Ok b' /\
    wf d (pre d (hashk q)) (MC b') /\
    lookup (cls q) (m_visit (MC (BIA bits values x))) = Some e /\ m_visit (MC b') <> [] /\
    Permutation (m_visit (MC b')) (without (cls q) (m_visit (MC (BIA bits values x)))).
Proof.
  intros HW Hg HW' HL Hne HP.
  assert (HWc : wf (d + 1) (pre (d + 1) (hashk q)) c).
  { inversion HW; subst. rewrite pre_succ. eauto. }
  pose proof (len_without_some _ _ _ (wf_uniq _ _ _ HWc) HL) as Hlen.
  assert (Hlen' : lenN (m_visit c') = lenN (without (cls q) (m_visit c))) by (unfold lenN; rewrite (Permutation_length HP); reflexivity).
  assert (Hcx : lenN (m_visit c) <= x).
  { destruct (slot_split _ _ _ _ _ _ HW (idx_lt d (hashk q))) as (rest & _ & HPs).
    inversion HW; subst.
    specialize (HPs bits values (lenN (concat (map m_visit values))) H4 (fun _ _ => eq_refl)). rewrite Hg in HPs. cbn [ovisit] in HPs.
    apply Permutation_length in HPs. rewrite app_length in HPs. cbn [m_visit] in HPs. unfold lenN in *. lia. }
  destruct (wf_update _ _ _ _ _ _ _ c' (x - 1) HW Hg) as (b' & Hb & HWb & rest & Hr & HP1 & HP2).
  { rewrite <- pre_succ. assumption. }
  { lia. }
  exists b', (x - 1). split.
  { unfold usub. destruct (N.leb_spec 1 x); [reflexivity|lia]. }
  split; [exact Hb|]. split; [exact HWb|]. split.
  - rewrite (lookup_C _ _ _ _ _ _ HW). fold (hashk q). rewrite Hg. exact HL.
  - split.
    + intros He. rewrite He in HP2. apply Permutation_nil in HP2. apply app_eq_nil in HP2. tauto.
    + eapply perm_slot_rem; try eassumption. reflexivity.
Qed.

Lemma m_remove_ok n : forall d (q : Q) f,
  wf d (pre d (hashk q)) n -> flag_for d (hashk q) f ->
  if checked && hits d (hashk q) n then m_remove n q (Some f) = Panic
  else exists r, m_remove n q (Some f) = Ret r /\ rem_ok d (pre d (hashk q)) (m_visit n) (cls q) r.
Proof.
  intros d q f HW. remember (pre d (hashk q)) as p eqn:Hpe. revert f Hpe.
  induction HW as [d p s Hs|d p l h HL Hl|d p bits values x Ho Hp Hok Hne Hx Hch IH]; intros f -> Hf.
  - cbn [hits]. rewrite andb_false_r. cbn [m_remove]. unfold s_remove, keqb. eexists. split; [reflexivity|].
    destruct s as [k v]. cbn [m_visit s_key s_value]. unfold s_visit. cbn [s_key s_value].
    destruct (ceqb_spec (cls k) (cls q)) as [He|Hn]; cbn [rem_ok]; rewrite lookup_cons; change (ecls (k, v)) with (cls k).
    + rewrite He, ceqb_refl. auto.
    + destruct (ceqb_spec (cls k) (cls q)); [contradiction|reflexivity].
  - cbn [hits]. rewrite andb_false_r. cbn [m_remove]. unfold l_remove. eexists. split; [reflexivity|].
    pose proof (l_remove_from_ok l q) as HR. pose proof HL as (Hlok & Hu & Hh). cbn [m_visit].
    destruct (l_remove_from l q) as [|n k v|s k v]; cbn [rem_ok rnode].
    + exact HR.
    + destruct HR as (H1 & H2 & H3). specialize (H3 Hu). split; [exact H1|]. cbn [m_visit]. rewrite H3. split; [|split].
      * apply wf_L with (h := h); [|assumption]. split; [auto|]. rewrite H3. split; [apply uniq_without; assumption|].
        intros e He. apply without_in in He. apply Hh. apply He.
      * rewrite <- H3. apply l_visit_ne.
      * reflexivity.
    + destruct HR as (H1 & H3). specialize (H3 Hu). split; [exact H1|]. cbn [m_visit]. rewrite H3. split; [|split].
      * constructor. rewrite <- Hl. f_equal. apply (Hh (s_key s, s_value s)).
        apply (without_in (cls q)). rewrite <- H3. left. reflexivity.
      * rewrite <- H3. discriminate.
      * reflexivity.
  - assert (HW : wf d (pre d (hashk q)) (MC (BIA bits values x))) by (econstructor; eassumption).
    rewrite hits_C. cbn [m_remove unwrap bind]. rewrite bat_map.
    rewrite (proj2 (proj2 Hf) Ho). rewrite (bat_get fw) by exact Hok. unfold get. cbn [bbits bvalues].
    destruct (getv bits values (idx d (hashk q))) as [c|] eqn:Hg.
    + pose proof (Hch _ _ Hg) as HWc. rewrite <- pre_succ in HWc.
      specialize (IH _ _ Hg). rewrite <- pre_succ in IH.
      destruct (flag_next_cases d (hashk q) f Hf Ho) as [(Hck & Hge & Hnx)|(Hcase & g & Hnx & Hfg)].
      * assert (hbits <=? off (d + 1) = true) as -> by (apply N.leb_le; assumption).
        rewrite Hck. cbn [orb andb]. rewrite Hnx. reflexivity.
      * assert (Hh : checked && ((hbits <=? off (d + 1)) || hits (d + 1) (hashk q) c) = checked && hits (d + 1) (hashk q) c).
        { destruct Hcase as [->|Hlt]; [reflexivity|].
          assert (hbits <=? off (d + 1) = false) as -> by (apply N.leb_gt; assumption). reflexivity. }
        rewrite Hh. clear Hh Hcase.
        specialize (IH g eq_refl Hfg). rewrite Hnx. cbn [bind].
        destruct (checked && hits (d + 1) (hashk q) c); [rewrite IH; reflexivity|].
        destruct IH as (r & Hr & Hi). rewrite Hr. cbn [bind].
        destruct r as [|c2 k' v'|l2 k' v'|s2 k' v'|k' v']; cbn [rem_ok rnode] in Hi.
        -- eexists. split; [reflexivity|]. cbn [rem_ok]. rewrite (lookup_C _ _ _ _ _ _ HW). fold (hashk q). rewrite Hg. exact Hi.
        -- destruct Hi as (H1 & H2 & H3 & H4).
           destruct (remove_update _ _ _ _ _ _ _ _ HW Hg H2 H1 H3 H4) as (b' & size & Hz & Hb & HWb & Hlb & Hnb & HPb).
           pose proof (wf_size_pos _ _ _ H2 ltac:(lia)) as Hpos. cbn [m_size] in Hpos.
           destruct (N.eqb_spec (bextra c2) 0); [lia|]. rewrite Hz. cbn [bind]. rewrite Hb. cbn [unwrap_ok bind].
           eexists. split; [reflexivity|]. cbn [rem_ok rnode]. auto.
        -- destruct Hi as (H1 & H2 & H3 & H4).
           destruct (remove_update _ _ _ _ _ _ _ _ HW Hg H2 H1 H3 H4) as (b' & size & Hz & Hb & HWb & Hlb & Hnb & HPb).
           rewrite Hz. cbn [bind]. rewrite Hb. cbn [unwrap_ok bind].
           eexists. split; [reflexivity|]. cbn [rem_ok rnode]. auto.
        -- destruct Hi as (H1 & H2 & H3 & H4).
           destruct (remove_update _ _ _ _ _ _ _ _ HW Hg H2 H1 H3 H4) as (b' & size & Hz & Hb & HWb & Hlb & Hnb & HPb).
           rewrite Hz. cbn [bind]. rewrite Hb. cbn [unwrap_ok bind].
           eexists. split; [reflexivity|]. cbn [rem_ok rnode]. auto.
        -- destruct Hi as (H1 & H2).
           assert (HLk : lookup (cls q) (m_visit (MC (BIA bits values x))) = Some (k', v')).
           { rewrite (lookup_C _ _ _ _ _ _ HW). fold (hashk q). rewrite Hg. exact H1. }
           assert (Hlx : x = lenN (m_visit (MC (BIA bits values x)))) by (cbn [m_visit]; assumption).
           destruct (N.eqb_spec x 1) as [->|Hx1].
           ++ eexists. split; [reflexivity|]. cbn [rem_ok]. split; [exact HLk|].
              destruct (m_visit (MC (BIA bits values 1))) as [|e0 [|e1 l]]; try discriminate.
              ** rewrite lookup_cons in HLk. destruct (ceqb (ecls e0) (cls q)); [|discriminate]. congruence.
              ** rewrite !lenN_cons in Hlx. lia.
           ++ assert (Hx2 : 1 < x).
              { destruct (m_visit (MC (BIA bits values x))); [discriminate|]. rewrite lenN_cons in Hlx. lia. }
              unfold usub. destruct (N.leb_spec 1 x); [|lia]. cbn [bind].
              destruct (wf_remove_slot _ _ _ _ _ _ _ (x - 1) HW Hg) as (b' & Hb & HWb & rest & Hr0 & HP1 & HP2).
              { rewrite H2. cbn. lia. }
              { lia. }
              rewrite Hb. cbn [unwrap_ok bind]. eexists. split; [reflexivity|]. cbn [rem_ok rnode].
              split; [exact HLk|]. split; [exact HWb|]. split.
              ** pose proof (wf_size _ _ _ HWb) as Hsz. intros He. rewrite He in HP2. apply Permutation_nil in HP2. subst rest.
                 apply Permutation_length in HP1. rewrite app_nil_r, H2 in HP1. cbn [length] in HP1.
                 unfold lenN in Hlx. rewrite HP1 in Hlx. lia.
              ** rewrite H2 in HP1. rewrite HP2. rewrite (without_perm (cls q) _ _ HP1). cbn [app].
                 rewrite H2, lookup_cons in H1. rewrite without_cons.
                 destruct (ceqb (ecls (k', v')) (cls q)); [|discriminate].
                 rewrite without_id; [reflexivity|]. eapply lookup_rest; [exact Hr0|reflexivity].
    + rewrite andb_false_r. eexists. split; [reflexivity|]. cbn [rem_ok].
      rewrite (lookup_C _ _ _ _ _ _ HW). fold (hashk q). rewrite Hg. reflexivity.
Qed.

End Query.
End TrieP.
