(** When insert and remove can panic in debug builds. *)
From Coq Require Import NArith Arith List Bool Lia ZifyBool ZifyN ZifyNat Permutation.
From Verif Require Import Base Words WordsP Flag FlagP Bia BiaP Node Spec SpecP Inv NodeP InsertP TrieP Api ApiP Reach ReachP MapP Hist HistP Profile.
Import ListNotations.
Open Scope N_scope.

Section Depth.
Context {E : Env} {K V : Type} {KK : Key K}.

(** A path through a last-level branch leads to an entry with that very hash. *)
Lemma hits_entry (n : mnode K V) d p h : wf d p n -> p = pre d h -> h < 2 ^ hbits -> hits d h n = true ->
  exists e, In e (m_visit n) /\ hash (ecls e) = h.
Proof.
  intros HW. induction HW as [d p s Hs|d p l g HL Hl|d p bits values x Ho Hp Hok Hne Hx Hch IH]; intros Hpe Hh Hd;
    try discriminate.
  rewrite hits_C in Hd. destruct (getv bits values (idx d h)) as [c|] eqn:Hg; [|discriminate].
  assert (HWc : wf (d + 1) (pre (d + 1) h) c) by (rewrite pre_succ, <- Hpe; eauto).
  assert (Hex : exists e, In e (m_visit c) /\ hash (ecls e) = h).
  { apply orb_true_iff in Hd. destruct Hd as [Hd|Hd].
    - apply N.leb_le in Hd. pose proof (wf_nonempty _ _ _ HWc ltac:(lia)) as Hv.
      destruct (m_visit c) as [|e vs] eqn:Hvc; [contradiction|]. exists e. split; [left; reflexivity|].
      assert (He : In e (m_visit c)) by (rewrite Hvc; left; reflexivity).
      pose proof (wf_keys _ _ _ HWc e He) as Hk. rewrite !pre_full in Hk by (try assumption; apply hash_lt). assumption.
    - eapply IH; try eassumption. rewrite pre_succ, Hpe. reflexivity. }
  destruct Hex as (e & He & Hhe). exists e. split; [|assumption].
  rewrite (visit_C _ _ _ _ Hok). apply in_flat_map. exists (idx d h). split.
  - apply range_in. pose proof (okv_lt _ _ _ _ _ Hok Hg). lia.
  - rewrite Hg. exact He.
Qed.

Theorem fresh_hash_no_panic {Q} {KQ : Key Q} (into : Q -> K) (m : trie K V) q v replace :
  reachable m -> cls (into q) = cls q ->
  (forall e, In e (map_visit m) -> hash (cls (fst e)) <> hash (cls q)) ->
  (exists r, map_insert into m q v replace = Ret r) /\ (exists r, map_remove m q = Ret r).
Proof.
  intros HR Hq Hn.
  assert (Hd : deep m (cls q) = false).
  { destruct (deep m (cls q)) eqn:Hd; [|reflexivity]. exfalso.
    destruct (hits_entry m 0 0 (hash (cls q)) (reachable_mwf _ HR)) as (e & He & Hh);
      [symmetry; apply pre_0|apply hash_lt|exact Hd|]. eapply Hn; eassumption. }
  split.
  - destruct (insert_total_iff into m q v replace HR Hq) as [(_ & _ & H)|[H _]]; [congruence|assumption].
  - destruct (remove_total_iff m q HR) as [(_ & _ & H)|[H _]]; [congruence|assumption].
Qed.

(** * Histories that never reach the last slice *)

(** No branch uses bits of the hash from [lim] on; there are some. *)
Context (lim : N) (Hlim : lim < hbits) (Hroot : off 1 <= lim).

Inductive shallow : N -> mnode K V -> Prop :=
| shallow_S d s : shallow d (MS s)
| shallow_L d l : shallow d (ML l)
| shallow_C d bits values x : off (d + 1) <= lim -> (forall c, In c values -> shallow (d + 1) c) ->
    shallow d (MC (BIA bits values x)).

Lemma shallow_C_inv d bits values x : shallow d (MC (BIA bits values x)) ->
  off (d + 1) <= lim /\ forall c, In c values -> shallow (d + 1) c.
Proof. intros H. inversion H; subst. auto. Qed.

Lemma shallow_hits d h n : shallow d n -> hits d h n = false.
Proof.
  intros H. induction H; try reflexivity. rewrite hits_C.
  destruct (getv bits values (idx d h)) as [c|] eqn:Hg; [|reflexivity].
  apply getv_in in Hg. rewrite (H1 c Hg). apply orb_false_iff. split; [|reflexivity].
  apply N.leb_gt. eapply N.le_lt_trans; eassumption.
Qed.

(** Hashes that differ before that. *)
Definition sep (h1 h2 : N) : Prop := h1 = h2 \/ forall d, pre d h1 = pre d h2 -> off (d + 1) <= lim.

Definition leaf (n : mnode K V) : Prop := match n with MC _ => False | _ => True end.

Lemma leaf_shallow d n : leaf n -> shallow d n.
Proof. destruct n; [contradiction|constructor|constructor]. Qed.

Lemma new_bia_inv {A} bits (values : list A) x b : unwrap_ok (new_bia bits values x) = Ret b -> b = BIA bits values x.
Proof. unfold new_bia. destruct (negb _); [discriminate|]. destruct (_ <=? _); [|discriminate]. cbn. congruence. Qed.

Lemma c_lift_shallow fuel : forall d h1 h2 this tf right rf c,
  leaf this -> leaf right -> h1 <> h2 -> sep h1 h2 -> pre d h1 = pre d h2 ->
  flag_for d h1 tf -> flag_for d h2 rf -> c_lift fuel this tf right rf = Ret c -> shallow d (MC c).
Proof.
  induction fuel as [|fuel IH]; intros d h1 h2 this tf right rf c Hl1 Hl2 Hne Hs Hp Ht Hr Hc; [discriminate|].
  assert (Hd' : off (d + 1) <= lim) by (destruct Hs; [contradiction|auto]).
  assert (Hd2 : off (d + 1) < hbits) by (eapply N.le_lt_trans; eassumption).
  assert (Hd : off d < hbits) by (pose proof (off_lt d); lia).
  cbn [c_lift] in Hc. revert Hc.
  rewrite (proj2 (proj2 Ht) Hd), (proj2 (proj2 Hr) Hd), pow2_eqb.
  destruct (N.eqb_spec (idx d h1) (idx d h2)) as [Hi|Hi].
  - rewrite (flag_next_ok d h1) by assumption. cbn [bind unwrap].
    rewrite (flag_next_ok d h2) by assumption. cbn [bind unwrap].
    destruct (c_lift fuel _ _ _ _) as [c1| |] eqn:H1; try discriminate. cbn [bind]. intros Hc.
    apply new_bia_inv in Hc. subst c. constructor; [assumption|]. intros c [<-|[]].
    eapply (IH (d + 1) h1 h2 this _ right _ c1 Hl1 Hl2 Hne Hs); [| | |exact H1]; [|apply flag_for_at; assumption|apply flag_for_at; assumption].
    rewrite !pre_succ, Hp, Hi. reflexivity.
  - destruct (bit_insert _ _) as [fl|]; [|discriminate]. cbn [unwrap_ok bind].
    destruct (bit_index _ _) as [i|]; [|discriminate]. cbn [unwrap_ok bind]. intros Hc.
    apply new_bia_inv in Hc. subst c. constructor; [assumption|].
    intros c Hc. apply leaf_shallow. destruct (i =? 0); destruct Hc as [<-|[<-|[]]]; assumption.
Qed.

Lemma leaf_next (nx : lnext K V) : leaf (next_mnode nx).
Proof. destruct nx; exact I. Qed.

Definition inode (r : insert_result K V) : option (mnode K V) :=
  match r with
  | IFound _ _ => None
  | IC c _ _ _ => Some (MC c)
  | IL l _ _ _ => Some (ML l)
  | IS s _ _ _ => Some (MS s)
  end.

Lemma l_lift_shallow d (nx : lnext K V) k v f r n' :
  sep (hashk (next_key nx)) (hashk k) -> pre d (hashk (next_key nx)) = pre d (hashk k) ->
  flag_for d (hashk k) f -> l_lift nx k v f = Ret r -> inode r = Some n' -> shallow d n'.
Proof.
  intros Hs Hp Hf Hr Hn. revert Hr. unfold l_lift. rewrite (proj1 Hf), (proj1 (proj2 Hf)).
  destruct (N.eqb_spec (hashk (next_key nx)) (hashk k)) as [He|Hne].
  - intros [= <-]. cbn in Hn. injection Hn as <-. constructor.
  - assert (Hd' : off (d + 1) <= lim) by (destruct Hs; [contradiction|auto]).
    assert (Hd2 : off (d + 1) < hbits) by (eapply N.le_lt_trans; eassumption).
    assert (Hd : off d < hbits) by (pose proof (off_lt d); lia).
    rewrite flag_at_ok by assumption. cbn [bind unwrap].
    destruct (cnode_lift _ _ _ _) as [c| |] eqn:Hc; try discriminate. cbn [bind]. intros [= <-].
    cbn in Hn. injection Hn as <-.
    eapply c_lift_shallow; [| |exact Hne|exact Hs|exact Hp| |exact Hf|exact Hc].
    + apply leaf_next.
    + exact I.
    + apply flag_for_at. assumption.
Qed.

Lemma bupdated_shallow d bits values x bit c size b :
  shallow d (MC (BIA bits values x)) -> shallow (d + 1) c ->
  unwrap_ok (bupdated (BIA bits values x) bit c size) = Ret b -> shallow d (MC b).
Proof.
  intros H Hc. inversion H; subst. unfold bupdated. destruct (bit_index _ _) as [i|]; [|discriminate].
  intros Hb. apply new_bia_inv in Hb. subst b. constructor; [assumption|].
  intros c1 Hin. cbn [bbits bvalues] in Hin. unfold values_update in Hin. apply in_app_or in Hin.
  destruct Hin as [Hin|[<-|Hin]]; [|assumption|].
  - apply H5. rewrite <- (firstn_skipn (N.to_nat i) values). apply in_or_app. left. assumption.
  - apply H5. rewrite <- (firstn_skipn (S (N.to_nat i)) values). apply in_or_app. right. assumption.
Qed.

Lemma binserted_shallow d bits values x bit c size b :
  shallow d (MC (BIA bits values x)) -> shallow (d + 1) c ->
  unwrap_ok (binserted (BIA bits values x) bit c size) = Ret b -> shallow d (MC b).
Proof.
  intros H Hc. inversion H; subst. unfold binserted. destruct (bit_insert _ _) as [fl|]; [|discriminate].
  destruct (bit_index _ _) as [i|]; [|discriminate].
  intros Hb. apply new_bia_inv in Hb. subst b. constructor; [assumption|].
  intros c1 Hin. cbn [bbits bvalues] in Hin. unfold values_insert in Hin. apply in_app_or in Hin.
  destruct Hin as [Hin|[<-|Hin]]; [|assumption|];
    apply H5; rewrite <- (firstn_skipn (N.to_nat i) values); apply in_or_app; auto.
Qed.

Lemma bremoved_shallow d bits values x bit size b :
  shallow d (MC (BIA bits values x)) ->
  unwrap_ok (bremoved (BIA bits values x) bit size) = Ret b -> shallow d (MC b).
Proof.
  intros H. inversion H; subst. unfold bremoved. destruct (bit_remove _ _) as [fl|]; [|discriminate].
  destruct (bit_index _ _) as [i|]; [|discriminate].
  intros Hb. apply new_bia_inv in Hb. subst b. constructor; [assumption|].
  intros c1 Hin. cbn [bbits bvalues] in Hin. unfold values_remove in Hin. apply in_app_or in Hin.
  destruct Hin as [Hin|Hin].
  - apply H5. rewrite <- (firstn_skipn (N.to_nat i) values). apply in_or_app. left. assumption.
  - apply H5. rewrite <- (firstn_skipn (S (N.to_nat i)) values). apply in_or_app. right. assumption.
Qed.

Section Query.
Context {Q : Type} {KQ : Key Q}.

Lemma s_insert_shallow d (s : snode K V) (q : Q) k v f replace r n' :
  sep (hashk (s_key s)) (hashk k) -> pre d (hashk (s_key s)) = pre d (hashk k) -> flag_for d (hashk k) f ->
  s_insert s q k v (Some f) replace = Ret r -> inode r = Some n' -> shallow d n'.
Proof.
  intros Hs Hp Hf Hr Hn. revert Hr. unfold s_insert. destruct (keqb _ _).
  - destruct replace; intros [= <-]; cbn in Hn; [injection Hn as <-; constructor|discriminate].
  - cbn [unwrap bind]. intros Hr. eapply (l_lift_shallow d (NS s)); eassumption.
Qed.

Lemma l_insert_shallow d (l : lnode K V) (q : Q) k v f replace r n' :
  sep (hashk (l_key l)) (hashk k) -> pre d (hashk (l_key l)) = pre d (hashk k) -> flag_for d (hashk k) f ->
  l_insert l q k v (Some f) replace = Ret r -> inode r = Some n' -> shallow d n'.
Proof.
  intros Hs Hp Hf Hr Hn. revert Hr. unfold l_insert. destruct (l_find l q) as [[fk fv]|].
  - destruct replace; [destruct (l_remove_from l q)|]; intros [= <-]; cbn in Hn; try discriminate;
      injection Hn as <-; constructor.
  - cbn [unwrap bind]. intros Hr. eapply (l_lift_shallow d (NL l)); eassumption.
Qed.

Lemma m_insert_shallow (n : mnode K V) : forall d (q : Q) k v f replace r n',
  shallow d n -> wf d (pre d (hashk k)) n ->
  (forall e, In e (m_visit n) -> sep (hash (ecls e)) (hashk k)) -> flag_for d (hashk k) f ->
  m_insert n q k v (Some f) replace = Ret r -> inode r = Some n' -> shallow d n'.
Proof.
  induction n as [bits values x IH|l|s] using mnode_ind'; intros d q k v f replace r n' Hsh HW Hsep Hf Hr Hn.
  - cbn [m_insert unwrap bind] in Hr. rewrite bat_map in Hr. pose proof Hsh as Hsh0. destruct (shallow_C_inv _ _ _ _ Hsh) as [Hd' Hvs].
    assert (Hd2 : off (d + 1) < hbits) by (eapply N.le_lt_trans; eassumption).
    assert (Hd : off d < hbits) by (pose proof (off_lt d); lia).
    destruct (wf_C_inv _ _ _ _ _ HW) as [Hok Hch].
    rewrite (proj2 (proj2 Hf) Hd) in Hr. rewrite (bat_get fw) in Hr by exact Hok. unfold get in Hr. cbn [bbits bvalues] in Hr.
    destruct (getv bits values (idx d (hashk k))) as [c|] eqn:Hg.
    2:{ destruct (binserted _ _ _ _) as [b|] eqn:Hb; [|discriminate]. cbn in Hr. injection Hr as <-. cbn in Hn. injection Hn as <-.
        eapply binserted_shallow; [exact Hsh0|apply shallow_S|]. rewrite Hb. reflexivity. }
    assert (Hin : In c values) by (eapply getv_in; exact Hg).
    rewrite Forall_forall in IH. specialize (IH c Hin).
    pose proof (Hch _ _ Hg) as HWc. rewrite <- pre_succ in HWc.
    assert (Hsepc : forall e, In e (m_visit c) -> sep (hash (ecls e)) (hashk k)).
    { intros e He. apply Hsep. cbn [m_visit]. rewrite <- flat_map_concat_map. apply in_flat_map. exists c. auto. }
    specialize (Hvs c Hin).
    assert (Hstep : forall r0 c', m_insert c q k v (Some (mkFlag (hashk k) (d + 1) (2 ^ idx (d + 1) (hashk k)))) replace = Ret r0 ->
              inode r0 = Some c' -> shallow (d + 1) c').
    { intros r0 c' H1 H2. eapply IH; try eassumption. apply flag_for_at. assumption. }
    rewrite (flag_next_ok d (hashk k)) in Hr by assumption.
    destruct c as [c0|l|s]; cbn [bind] in Hr.
    + destruct (m_insert (MC c0) q k v _ replace) as [r0| |] eqn:Hr0; try discriminate. cbn [bind] in Hr.
      destruct r0 as [k' v'|c2 k' v' prev|l2 k' v' prev|s2 k' v' prev]; try discriminate.
      * injection Hr as <-. discriminate.
      * destruct (usub _ _) as [z| |]; try discriminate. cbn [bind] in Hr.
        destruct (unwrap_ok (bupdated _ _ _ _)) as [b| |] eqn:Hb; try discriminate. cbn in Hr. injection Hr as <-. cbn in Hn. injection Hn as <-.
        eapply bupdated_shallow; [exact Hsh0| |exact Hb]. eapply Hstep; reflexivity.
    + cbn [m_insert] in Hstep. destruct (l_insert l q k v _ replace) as [r0| |] eqn:Hr0; try discriminate. cbn [bind] in Hr.
      destruct r0 as [k' v'|c2 k' v' prev|l2 k' v' prev|s2 k' v' prev]; try discriminate.
      * injection Hr as <-. discriminate.
      * destruct (unwrap_ok (bupdated _ _ _ _)) as [b| |] eqn:Hb; try discriminate. cbn in Hr. injection Hr as <-. cbn in Hn. injection Hn as <-.
        eapply bupdated_shallow; [exact Hsh0| |exact Hb]. eapply Hstep; reflexivity.
      * destruct (usub _ _) as [z| |]; try discriminate. cbn [bind] in Hr.
        destruct (unwrap_ok (bupdated _ _ _ _)) as [b| |] eqn:Hb; try discriminate. cbn in Hr. injection Hr as <-. cbn in Hn. injection Hn as <-.
        eapply bupdated_shallow; [exact Hsh0| |exact Hb]. constructor.
    + cbn [m_insert] in Hstep. destruct (s_insert s q k v _ replace) as [r0| |] eqn:Hr0; try discriminate. cbn [bind] in Hr.
      destruct r0 as [k' v'|c2 k' v' prev|l2 k' v' prev|s2 k' v' prev].
      * injection Hr as <-. discriminate.
      * destruct (unwrap_ok (bupdated _ _ _ _)) as [b| |] eqn:Hb; try discriminate. cbn in Hr. injection Hr as <-. cbn in Hn. injection Hn as <-.
        eapply bupdated_shallow; [exact Hsh0| |exact Hb]. eapply Hstep; reflexivity.
      * destruct (unwrap_ok (bupdated _ _ _ _)) as [b| |] eqn:Hb; try discriminate. cbn in Hr. injection Hr as <-. cbn in Hn. injection Hn as <-.
        eapply bupdated_shallow; [exact Hsh0| |exact Hb]. constructor.
      * destruct (unwrap_ok (bupdated _ _ _ _)) as [b| |] eqn:Hb; try discriminate. cbn in Hr. injection Hr as <-. cbn in Hn. injection Hn as <-.
        eapply bupdated_shallow; [exact Hsh0| |exact Hb]. constructor.
  - cbn [m_insert] in Hr. assert (Hin : In (l_key l, l_value l) (m_visit (ML l))) by (destruct l; left; reflexivity).
    eapply l_insert_shallow; try eassumption.
    + exact (Hsep _ Hin).
    + exact (wf_keys _ _ _ HW _ Hin).
  - cbn [m_insert] in Hr. assert (Hin : In (s_key s, s_value s) (m_visit (MS s))) by (left; reflexivity).
    eapply s_insert_shallow; try eassumption.
    + exact (Hsep _ Hin).
    + exact (wf_keys _ _ _ HW _ Hin).
Qed.

Definition rnode' (r : remove_result K V) : option (mnode K V) :=
  match r with
  | RC c _ _ => Some (MC c)
  | RL l _ _ => Some (ML l)
  | RS s _ _ => Some (MS s)
  | _ => None
  end.

Lemma m_remove_shallow (n : mnode K V) : forall d (q : Q) f r n',
  shallow d n -> m_remove n q f = Ret r -> rnode' r = Some n' -> shallow d n'.
Proof.
  induction n as [bits values x IH|l|s] using mnode_ind'; intros d q f r n' Hsh Hr Hn.
  - cbn [m_remove] in Hr. destruct f as [f|]; [|discriminate]. cbn [unwrap bind] in Hr. rewrite bat_map in Hr.
    pose proof Hsh as Hsh0. destruct (shallow_C_inv _ _ _ _ Hsh) as [Hd' Hvs].
    destruct (bat (BIA bits values x) (fl_flag f)) as [c|] eqn:Hb; [|injection Hr as <-; discriminate].
    apply bat_in in Hb. rewrite Forall_forall in IH. specialize (IH c Hb). cbn [bvalues] in Hb. specialize (Hvs c Hb).
    destruct (flag_next f) as [nx| |]; try discriminate. cbn [bind] in Hr.
    destruct (m_remove c q nx) as [r0| |] eqn:Hr0; try discriminate. cbn [bind] in Hr.
    destruct r0 as [|c2 k' v'|l2 k' v'|s2 k' v'|k' v'].
    + injection Hr as <-. discriminate.
    + destruct (bextra c2 =? 0); [discriminate|]. destruct (usub x 1) as [z| |]; try discriminate. cbn [bind] in Hr.
      destruct (unwrap_ok (bupdated _ _ _ _)) as [b| |] eqn:Hbu; try discriminate. cbn in Hr. injection Hr as <-. cbn in Hn. injection Hn as <-.
      eapply bupdated_shallow; [exact Hsh0| |exact Hbu]. eapply IH; [exact Hvs|exact Hr0|reflexivity].
    + destruct (usub x 1) as [z| |]; try discriminate. cbn [bind] in Hr.
      destruct (unwrap_ok (bupdated _ _ _ _)) as [b| |] eqn:Hbu; try discriminate. cbn in Hr. injection Hr as <-. cbn in Hn. injection Hn as <-.
      eapply bupdated_shallow; [exact Hsh0| |exact Hbu]. constructor.
    + destruct (usub x 1) as [z| |]; try discriminate. cbn [bind] in Hr.
      destruct (unwrap_ok (bupdated _ _ _ _)) as [b| |] eqn:Hbu; try discriminate. cbn in Hr. injection Hr as <-. cbn in Hn. injection Hn as <-.
      eapply bupdated_shallow; [exact Hsh0| |exact Hbu]. constructor.
    + destruct (x =? 1); [injection Hr as <-; discriminate|]. destruct (usub x 1) as [z| |]; try discriminate. cbn [bind] in Hr.
      destruct (unwrap_ok (bremoved _ _ _)) as [b| |] eqn:Hbu; try discriminate. cbn in Hr. injection Hr as <-. cbn in Hn. injection Hn as <-.
      eapply bremoved_shallow; [exact Hsh0|exact Hbu].
  - cbn [m_remove] in Hr. injection Hr as <-. unfold l_remove in Hn. destruct (l_remove_from l q); cbn in Hn; try discriminate;
      injection Hn as <-; constructor.
  - cbn [m_remove] in Hr. injection Hr as <-. unfold s_remove in Hn. destruct (keqb _ _); discriminate.
Qed.

End Query.

Lemma shallow_new : shallow 0 (map_new (K := K) (V := V)).
Proof. constructor; [exact Hroot|intros c []]. Qed.

(** Keys a history inserts. *)
Definition inserted (os : list (op K V)) : list K :=
  flat_map (fun o => match o with OInsert k _ _ => [k] | _ => [] end) os.

Lemma no_panic_aux (S : K -> Prop) (os : list (op K V)) :
  (forall k k', S k -> S k' -> sep (hashk k) (hashk k')) ->
  forall (m : trie K V), reachable m -> shallow 0 m -> (forall e, In e (map_visit m) -> S (fst e)) ->
  (forall k, In k (inserted os) -> S k) -> exists r, run m os = Ret r.
Proof.
  intros HS. induction os as [|o os IH]; intros m HR Hsh HmS Hos; cbn [run]; [eexists; reflexivity|].
  pose proof (reachable_mwf _ HR) as HW.
  assert (Hdeep : forall c, deep m c = false) by (intros c; apply shallow_hits; exact Hsh).
  assert (Hstep : exists m1 x, step m o = Ret (m1, x) /\ reachable m1 /\ shallow 0 m1 /\ (forall e, In e (map_visit m1) -> S (fst e))).
  { destruct (step_ok m (map_visit m) o HR (Permutation_refl _)) as [[Hp _]|(m1 & H1 & HR1 & HP1)].
    - exfalso. destruct o as [k v replace|k|k]; cbn [step] in Hp.
      + destruct (insert_total_iff (fun x : K => x) m k v replace HR eq_refl) as [(_ & _ & H)|[[r H] _]]; [congruence|].
        rewrite H in Hp. cbn [bind] in Hp. destruct r as [[[? ?] ?]|]; discriminate.
      + destruct (remove_total_iff m k HR) as [(_ & _ & H)|[[r H] _]]; [congruence|].
        rewrite H in Hp. cbn [bind] in Hp. destruct r as [[? ?]|]; discriminate.
      + rewrite (map_find_ok m k HW) in Hp. cbn [bind] in Hp. destruct (lookup _ _); discriminate.
    - exists m1. eexists. split; [exact H1|]. split; [exact HR1|]. destruct o as [k v replace|k|k]; cbn [step] in H1.
      + destruct (map_insert (fun x => x) m k v replace) as [r| |] eqn:Hi; try discriminate. cbn [bind] in H1.
        destruct (insert_inv (fun x : K => x) m k v replace r HW eq_refl Hi) as [(e & _ & _ & ->)|(m' & -> & HW' & HP' & _)].
        { injection H1 as <- _. auto. }
        injection H1 as <- _. split.
        * revert Hi. unfold map_insert. rewrite flag_new_ok. cbn [bind].
          destruct (m_insert m k k v _ replace) as [r0| |] eqn:Hr0; try discriminate. cbn [bind]. intros Hi.
          eapply m_insert_shallow; [exact Hsh| | | |exact Hr0|].
          -- rewrite pre_0. exact HW.
          -- intros e He. apply (HS (fst e) k); [apply HmS; exact He|]. apply Hos. cbn. left. reflexivity.
          -- apply flag_for_0.
          -- destruct r0; inversion Hi; reflexivity.
        * intros e He. apply (Permutation_in _ HP') in He. destruct He as [<-|He].
          -- apply Hos. cbn. left. reflexivity.
          -- apply without_in in He. apply HmS. apply He.
      + destruct (map_remove m k) as [r| |] eqn:Hi; try discriminate. cbn [bind] in H1.
        destruct (remove_inv m k r HW Hi) as [(_ & ->)|(m' & e & _ & -> & HW' & HP')].
        { injection H1 as <- _. auto. }
        injection H1 as <- _. split.
        * revert Hi. unfold map_remove. rewrite flag_new_ok. cbn [bind].
          destruct (m_remove m k _) as [r0| |] eqn:Hr0; try discriminate. cbn [bind]. intros Hi.
          destruct r0 as [|c2 k' v'|l2 k' v'|s2 k' v'|k' v'] eqn:Hr0'; inversion Hi; subst m';
            try apply shallow_new; eapply m_remove_shallow; try exact Hsh; try exact Hr0; reflexivity.
        * intros e' He. apply (Permutation_in _ HP') in He. apply without_in in He. apply HmS. apply He.
      + rewrite (map_find_ok m k HW) in H1. cbn [bind] in H1. destruct (lookup _ _); injection H1 as <- _; auto. }
  destruct Hstep as (m1 & x & -> & HR1 & Hsh1 & HS1). cbn [bind].
  destruct (IH m1 HR1 Hsh1 HS1) as ([m2 xs] & ->).
  { intros k Hk. apply Hos. unfold inserted. cbn [flat_map]. apply in_or_app. right. exact Hk. }
  cbn [bind]. eexists. reflexivity.
Qed.

End Depth.

Section Separated.
Context {E : Env} {K V : Type} {KK : Key K}.

Lemma off_1_lt : off 1 < hbits.
Proof. unfold off, hbits. destruct fw, hw; reflexivity. Qed.

(** Number of hash bits before the last slice. *)
Definition last_off : N := log_b fw * ((max_ones hw - 1) / log_b fw).

Lemma low_bits a b h1 h2 : b <= a -> h1 mod 2 ^ a = h2 mod 2 ^ a -> h1 mod 2 ^ b = h2 mod 2 ^ b.
Proof.
  intros Hb H. replace a with (b + (a - b)) in H by (clear - Hb; lia). generalize dependent (a - b). intros c H.
  rewrite N.pow_add_r, !N.mod_mul_r in H by apply pow2_ne0. apply (f_equal (fun x => x mod 2 ^ b)) in H.
  rewrite !(N.mul_comm (2 ^ b)), !N.mod_add, !N.mod_mod in H by apply pow2_ne0. exact H.
Qed.
Lemma low_slices m l d : 0 < l -> 0 < m -> m <= l * (d + 1) -> l * ((m - 1) / l) <= l * d.
Proof.
  intros Hl Hm H. apply N.mul_le_mono_l. apply N.lt_succ_r. rewrite <- N.add_1_r. apply N.div_lt_upper_bound; lia.
Qed.

Lemma sep_of h1 h2 : (h1 mod 2 ^ last_off = h2 mod 2 ^ last_off -> h1 = h2) -> sep (hbits - 1) h1 h2.
Proof.
  intros H. destruct (N.eq_dec h1 h2) as [He|Hne]; [left; assumption|]. right. intros d Hd.
  destruct (N.lt_ge_cases (off (d + 1)) hbits) as [|Hge]; [lia|]. exfalso. apply Hne, H.
  unfold pre in Hd. apply (low_bits (off d)); [|exact Hd].
  unfold last_off, off, hbits in *. rewrite N.mul_comm in Hge. rewrite (N.mul_comm d).
  apply low_slices; [apply log_b_pos|apply max_ones_hw_pos|exact Hge].
Qed.

Theorem separated_no_panic (os : list (op K V)) :
  (forall k k', In k (inserted os) -> In k' (inserted os) ->
     hashk k mod 2 ^ last_off = hashk k' mod 2 ^ last_off -> hashk k = hashk k') ->
  exists r, run map_new os = Ret r.
Proof.
  intros H. pose proof off_1_lt as Ho. apply (no_panic_aux (hbits - 1) ltac:(lia) ltac:(lia) (fun k => In k (inserted os))).
  - intros k k' Hk Hk'. apply sep_of. apply H; assumption.
  - apply reach_new.
  - apply shallow_new. lia.
  - intros e [].
  - auto.
Qed.

End Separated.
