(** Finding an entry again after an operation: find and the handles below a map. *)
From Coq Require Import NArith Arith List Bool Lia ZifyBool ZifyN ZifyNat.
From Verif Require Import Base Words WordsP Flag FlagP Bia BiaP Node Spec SpecP Inv NodeP InsertP TrieP Api Trans Transform Reach ReachP
  Depth Heap SpecH SpecB HeapP HeapOpP HeapCostP HeapHist HeapHistP HeapBulk HeapBulkP HeapRun HeapRunP HeapBoundP HeapBoundAP HeapStayP.
Import ListNotations.
Open Scope N_scope.

Section Find.
Context {E : Env} {K V : Type} {KK : Key K}.
Notation heap := (heap K V).
Implicit Types (h : heap).

(** What lies below a handle that stands for a tree stands for a tree. *)
Lemma rep_below h n c : below h n c -> forall t, rep h n t -> exists tc, rep h c tc /\ incl (m_visit tc) (m_visit t).
Proof.
  induction 1 as [n|a c child m Hn Hi Hb IH|a k v next z m Hn Hb IH]; intros t Ht.
  - exists t. split; [exact Ht|apply incl_refl].
  - inversion Ht as [a0 bits hs ts x Hn' HF Hlt E1 E2| |]; subst. assert (c = BIA bits hs x) by congruence. subst c. cbn [bvalues] in Hi.
    destruct (In_nth_error _ _ Hi) as (i & Hni).
    pose proof (nth_rel _ _ _ HF i) as Hr. rewrite Hni in Hr. inversion Hr as [? tc Hrc E1 Htc|]; subst. symmetry in Htc.
    destruct (IH tc Hrc) as (tm & Hrm & Hin). exists tm. split; [exact Hrm|]. intros e He. apply Hin in He. cbn [m_visit bvalues].
    apply in_concat. exists (m_visit tc). split; [|exact He]. apply in_map. eapply nth_error_In, Htc.
  - inversion Ht as [|a0 l Hl E1 E2|]; subst. destruct l as [k' v' l z'|k' v' s z'].
    + destruct (rep_LL_inv _ _ _ _ _ _ Hl) as (b & Hc & _ & Hr). assert (next = XL b) by congruence. subst next.
      destruct (IH (ML l)) as (tm & Hrm & Hin); [constructor; exact Hr|]. exists tm. split; [exact Hrm|]. intros e He. right. apply Hin, He.
    + destruct (rep_LS_inv _ _ _ _ _ _ Hl) as (b & Hc & _ & Hr). assert (next = XS b) by congruence. subst next.
      destruct (IH (MS s)) as (tm & Hrm & Hin); [constructor; exact Hr|]. exists tm. split; [exact Hrm|]. intros e He. right. apply Hin, He.
Qed.

Lemma keqb_true {A B} {KA : Key A} {KB : Key B} (k : A) (q : B) : keqb k q = true <-> cls k = cls q.
Proof. unfold keqb. apply ceqb_eq. Qed.

Section Query.
Context {Q : Type} {KQ : Key Q}.

(** The handle is a list or a leaf that starts with the key. *)
Definition starts h (c : hnode) (q : Q) : Prop :=
  match c with HC _ => False | HL a => exists k v x z, nth_error h a = Some (CellL k v x z) /\ cls k = cls q
  | HS a => exists k v, nth_error h a = Some (CellS k v) /\ cls k = cls q end.

Lemma starts_ext h h' c q : ext h h' -> starts h c q -> starts h' c q.
Proof.
  intros He. destruct c as [a|a|a]; cbn [starts]; [auto| |].
  - intros (k & v & x & z & H & Hk). exists k, v, x, z. split; [eapply ext_nth; eassumption|exact Hk].
  - intros (k & v & H & Hk). exists k, v. split; [eapply ext_nth; eassumption|exact Hk].
Qed.
Lemma starts_in h c q t : starts h c q -> rep h c t -> exists e, In e (m_visit t) /\ ecls e = cls q.
Proof.
  intros Hs Hr. destruct c as [a|a|a]; [destruct Hs| |].
  - destruct Hs as (k & v & x & z & Hn & Hk). inversion Hr as [|a0 l Hl|]; subst. exists (k, v). split; [|exact Hk]. destruct l as [k' v' l z'|k' v' s z'].
    + destruct (rep_LL_inv _ _ _ _ _ _ Hl) as (b & Hc & _). left. congruence.
    + destruct (rep_LS_inv _ _ _ _ _ _ Hl) as (b & Hc & _). left. congruence.
  - destruct Hs as (k & v & Hn & Hk). inversion Hr as [| |a0 s Hl]; subst. exists (k, v). split; [|exact Hk]. inversion Hl; subst. left. cbn. congruence.
Qed.

Lemma hs_find_starts h a (q : Q) b : hs_find h a q = Ret (Some b) -> b = a /\ starts h (HS a) q.
Proof.
  unfold hs_find, get_s. destruct (nth_error h a) as [[?|? ? ? ?|k v]|] eqn:Hn; cbn [bind]; try discriminate. cbn [fst].
  destruct (keqb k q) eqn:Hk; [|discriminate]. intros [= <-]. split; [reflexivity|]. exists k, v. split; [exact Hn|]. apply keqb_true, Hk.
Qed.
Lemma hl_find_starts h (q : Q) fuel : forall a b, hl_find fuel h a q = Ret (Some b) -> exists c, below h (HL a) c /\ addr_of c = b /\ starts h c q.
Proof.
  induction fuel as [|fuel IH]; intros a b; cbn [hl_find]; [discriminate|]. unfold get_l.
  destruct (nth_error h a) as [[?|k v x z|? ?]|] eqn:Hn; cbn [bind]; try discriminate. cbn [fst].
  destruct (keqb k q) eqn:Hk.
  - intros [= <-]. exists (HL a). split; [apply be_self|]. split; [reflexivity|]. exists k, v, x, z. split; [exact Hn|apply keqb_true, Hk].
  - destruct x as [c|c]; intros H.
    + apply IH in H. destruct H as (d & Hb & Hd). exists d. split; [eapply be_L; [exact Hn|exact Hb]|exact Hd].
    + apply hs_find_starts in H. destruct H as (-> & Hs). exists (HS c). split; [eapply be_L; [exact Hn|apply be_self]|]. split; [reflexivity|exact Hs].
Qed.
Lemma h_find_starts h (q : Q) fuel : forall n f b, h_find fuel h n q f = Ret (Some b) -> exists c, below h n c /\ addr_of c = b /\ starts h c q.
Proof.
  induction fuel as [|fuel IH]; intros n f b; cbn [h_find]; [discriminate|]. destruct n as [a|a|a].
  - unfold get_c. destruct (nth_error h a) as [[c|? ? ? ?|? ?]|] eqn:Hn; cbn [bind]; try discriminate.
    destruct f as [f|]; cbn [unwrap bind]; [|discriminate]. destruct (bat c (fl_flag f)) as [m|] eqn:Hb; [|discriminate]. apply bat_in in Hb.
    intros H. assert (Hm : exists d, below h m d /\ addr_of d = b /\ starts h d q).
    { destruct m as [d|d|d].
      - apply bind_ret in H. destruct H as (g & _ & H). eapply IH, H.
      - eapply hl_find_starts, H.
      - apply hs_find_starts in H. destruct H as (-> & Hs). exists (HS d). split; [apply be_self|]. split; [reflexivity|exact Hs]. }
    destruct Hm as (d & Hd & Hr). exists d. split; [eapply be_C; eassumption|exact Hr].
  - intros H. apply (hl_find_starts h q (S fuel) a b H).
  - intros H. apply hs_find_starts in H. destruct H as (-> & Hs). exists (HS a). split; [apply be_self|]. split; [reflexivity|exact Hs].
Qed.

(** And find gets there. *)
Lemma hl_find_at h (q : Q) c n : below h n c -> starts h c q -> forall a l fuel, n = HL a -> rep_l h a l -> uniq (l_visit l) -> (a < fuel)%nat ->
  hl_find fuel h a q = Ret (Some (addr_of c)).
Proof.
  induction 1 as [n|a0 c child m Hn Hi Hb IH|a0 k v next z m Hn Hb IH]; intros Hs a l fuel Ha Hl Hu Hf.
  - subst n. destruct fuel as [|fuel]; [lia|]. destruct Hs as (k & v & y & z & Hn & Hk). cbn [hl_find]. rewrite (get_l_eq _ _ _ _ _ _ Hn). cbn [bind fst].
    rewrite (proj2 (keqb_true k q) Hk). reflexivity.
  - discriminate.
  - injection Ha as <-. destruct fuel as [|fuel]; [lia|]. cbn [hl_find]. rewrite (get_l_eq _ _ _ _ _ _ Hn). cbn [bind fst].
    assert (Hnx : exists tn, rep h (hnext_node next) tn /\ l_visit l = (k, v) :: m_visit tn /\ (addr_of (hnext_node next) < a0)%nat).
    { destruct l as [k' v' l z'|k' v' s z'].
      - destruct (rep_LL_inv _ _ _ _ _ _ Hl) as (b & Hc & Hlt & Hr). exists (ML l). assert (next = XL b) by congruence. subst next.
        assert (k' = k /\ v' = v) as (-> & ->) by (split; congruence). split; [constructor; exact Hr|]. split; [reflexivity|exact Hlt].
      - destruct (rep_LS_inv _ _ _ _ _ _ Hl) as (b & Hc & Hlt & Hr). exists (MS s). assert (next = XS b) by congruence. subst next.
        assert (k' = k /\ v' = v) as (-> & ->) by (split; congruence). split; [constructor; exact Hr|]. split; [reflexivity|exact Hlt]. }
    destruct Hnx as (tn & Hrn & Hv & Hlt). rewrite Hv in Hu. apply uniq_cons in Hu. destruct Hu as (Hno & Hu).
    destruct (rep_below _ _ _ Hb _ Hrn) as (tc & Hrc & Hin). destruct (starts_in _ _ _ _ Hs Hrc) as (e & He & Hec).
    rewrite lookup_none in Hno. specialize (Hno e (Hin e He)).
    destruct (keqb k q) eqn:Hk; [apply keqb_true in Hk; exfalso; apply Hno; unfold ecls; cbn [fst]; unfold ecls in Hec; congruence|].
    destruct next as [b|b].
    + inversion Hrn as [|? l' Hl'|]; subst. cbn [hnext_node addr_of] in Hlt. apply (IH Hs b l' fuel); [reflexivity|exact Hl'|exact Hu|lia].
    + inversion Hb; subst. destruct Hs as (k1 & v1 & Hn1 & Hk1). unfold hs_find. rewrite (get_s_eq _ _ _ (rep_SN _ _ _ _ Hn1)). cbn [bind fst addr_of].
      cbn. rewrite (proj2 (keqb_true k1 q) Hk1). reflexivity.
Qed.

Lemma h_find_at h (q : Q) c n : below h n c -> starts h c q -> forall t d p f fuel, rep h n t -> wf d p t -> flag_for d (hashk q) f -> (addr_of n < fuel)%nat ->
  h_find fuel h n q (Some f) = Ret (Some (addr_of c)).
Proof.
  induction 1 as [n|a c child m Hn Hi Hb IH|a k v next z m Hn Hb IH]; intros Hs t d p f fuel Hr HW Hfl Hf; (destruct fuel as [|fuel]; [lia|]).
  - destruct n as [a|a|a]; [destruct Hs| |].
    + inversion Hr as [|? l Hl|]; subst. inversion HW as [|? ? ? x (_ & Hu & _)|]; subst. cbn [h_find].
      apply (hl_find_at h q (HL a) (HL a) (be_self _ _) Hs a l (S fuel) eq_refl Hl Hu Hf).
    + cbn [h_find]. destruct Hs as (k1 & v1 & Hn1 & Hk1). unfold hs_find. rewrite (get_s_eq _ _ _ (rep_SN _ _ _ _ Hn1)). cbn.
      rewrite (proj2 (keqb_true k1 q) Hk1). reflexivity.
  - inversion Hr as [a0 bits hs ts x Hn' HF Hlt E1 E2| |]; subst. assert (c = BIA bits hs x) by congruence. subst c. cbn [bvalues] in Hi.
    cbn [h_find]. rewrite (get_c_eq _ _ _ Hn). cbn [bind unwrap].
    pose proof HW as HW0. inversion HW as [| |? ? ? ? ? Ho Hp Hok Hne Hx Hkid]; subst.
    assert (Hokh : okv (max_ones fw) bits hs).
    { unfold okv in *. replace (lenN hs) with (lenN ts); [exact Hok|]. unfold lenN. f_equal. clear - HF. induction HF; cbn; congruence. }
    destruct (in_values_get _ _ _ child Hokh Hi) as (i & Hi' & Hgh).
    assert (Hgt : exists tc, getv bits ts i = Some tc /\ rep h child tc).
    { unfold getv, nthN in *. destruct (N.testbit bits i); [|discriminate]. pose proof (nth_rel _ _ _ HF (N.to_nat (rank bits i))) as Hj.
      rewrite Hgh in Hj. inversion Hj as [? tc Hrc E1 Htc|]; subst. exists tc. split; [reflexivity|exact Hrc]. }
    destruct Hgt as (tc & Hgt & Hrc).
    destruct (rep_below _ _ _ Hb _ Hrc) as (tm & Hrm & Hin). destruct (starts_in _ _ _ _ Hs Hrm) as (e & He & Hec).
    pose proof (wf_C_idx _ _ _ _ _ _ _ _ HW0 Hgt (Hin e He)) as Hidx. rewrite Hec in Hidx. change (idx d (hashk q) = i) in Hidx.
    pose proof (Hkid i tc Hgt) as HWc. pose proof Hfl as (Hfh & Hfd & Hff). rewrite (Hff Ho), Hidx. rewrite (bat_get fw) by exact Hokh. unfold get. cbn [bbits bvalues]. rewrite Hgh.
    rewrite Forall_forall in Hlt. pose proof (Hlt child Hi) as Hlc. cbn [addr_of] in Hf.
    destruct child as [b|b|b].
    + inversion Hrc; subst. inversion HWc as [| |? ? ? ? ? Ho']; subst. rewrite (flag_next_ok _ _ _ Hfl Ho'). cbn [bind].
      eapply IH; [exact Hs|exact Hrc|exact HWc|apply flag_for_at; exact Ho'|lia].
    + inversion Hrc as [|? l Hl|]; subst. inversion HWc as [|? ? ? x (_ & Hu & _)|]; subst.
      eapply hl_find_at; [exact Hb|exact Hs|reflexivity|exact Hl|exact Hu|]. cbn [addr_of] in Hlc. lia.
    + inversion Hb; subst. destruct Hs as (k1 & v1 & Hn1 & Hk1). unfold hs_find. rewrite (get_s_eq _ _ _ (rep_SN _ _ _ _ Hn1)). cbn.
      rewrite (proj2 (keqb_true k1 q) Hk1). reflexivity.
  - inversion Hr as [|? l Hl|]; subst. inversion HW as [|? ? ? x (_ & Hu & _)|]; subst. cbn [h_find].
    apply (hl_find_at h q m (HL a) (be_L _ _ _ _ _ _ _ Hn Hb) Hs a l (S fuel) eq_refl Hl Hu Hf).
Qed.

Lemma hm_find_starts h n (q : Q) b : hm_find h n q = Ret (Ok b) -> exists c, below h n c /\ addr_of c = b /\ starts h c q.
Proof.
  unfold hm_find. intros H. apply bind_ret in H. destruct H as (f & _ & H). apply bind_ret in H. destruct H as ([a|] & Ha & H); [|discriminate].
  injection H as ->. eapply h_find_starts, Ha.
Qed.
Lemma hm_find_at h n (q : Q) c t : below h n c -> starts h c q -> rep h n t -> wf 0 0 t -> hm_find h n q = Ret (Ok (addr_of c)).
Proof.
  intros Hb Hs Hr HW. unfold hm_find. rewrite flag_new_ok. cbn [bind].
  rewrite (h_find_at h q c n Hb Hs t 0 0 _ (enough h) Hr HW); [reflexivity| |eapply enough_ok, Hr]. repeat split.
Qed.
End Query.
End Find.

(** ** Arrays keep their other slots *)
Lemma bupdated_rest {A} (b b2 : bia A) bit u v x c : bat b bit = Ok u -> bupdated b bit v x = Ok b2 -> In c (bvalues b) -> c = u \/ In c (bvalues b2).
Proof.
  unfold bat, bupdated. destruct (bit_index (bbits b) bit) as [i|]; [|discriminate]. unfold nthN.
  destruct (nth_error (bvalues b) (N.to_nat i)) as [u'|] eqn:Hu; [|discriminate]. intros [= ->] Hb Hc.
  assert (Hv : bvalues b2 = values_update (bvalues b) i v).
  { unfold new_bia in Hb. destruct (negb _); [discriminate|]. destruct (_ <=? _); [|discriminate]. injection Hb as <-. reflexivity. }
  rewrite Hv. unfold values_update. destruct (nth_error_split _ _ Hu) as (l1 & l2 & Hl & Hn). rewrite Hl in *. rewrite <- Hn in *.
  rewrite firstn_app, Nat.sub_diag, firstn_all, firstn_O, app_nil_r.
  replace (skipn (S (length l1)) (l1 ++ u :: l2)) with l2.
  - apply in_app_or in Hc. destruct Hc as [Hc|[Hc|Hc]]; [right; apply in_or_app; auto|left; auto|right; apply in_or_app; right; right; auto].
  - rewrite skipn_app. rewrite skipn_all2 by lia. replace (S (length l1) - length l1)%nat with 1%nat by lia. reflexivity.
Qed.
Lemma bremoved_rest {A} (b b2 : bia A) bit u x c : bat b bit = Ok u -> bremoved b bit x = Ok b2 -> In c (bvalues b) -> c = u \/ In c (bvalues b2).
Proof.
  unfold bat, bremoved. destruct (bit_index (bbits b) bit) as [i|] eqn:Hi; [|discriminate]. unfold nthN.
  destruct (nth_error (bvalues b) (N.to_nat i)) as [u'|] eqn:Hu; [|discriminate]. intros [= ->]. destruct (bit_remove _ _) as [bits|] eqn:Hbr; [|discriminate].
  intros Hb Hc. assert (Hv : bvalues b2 = values_remove (bvalues b) i).
  { unfold new_bia in Hb. destruct (negb _); [discriminate|]. destruct (_ <=? _); [|discriminate]. injection Hb as <-. reflexivity. }
  rewrite Hv. unfold values_remove. destruct (nth_error_split _ _ Hu) as (l1 & l2 & Hl & Hn). rewrite Hl in *. rewrite <- Hn in *.
  rewrite firstn_app, Nat.sub_diag, firstn_all, firstn_O, app_nil_r.
  replace (skipn (S (length l1)) (l1 ++ u :: l2)) with l2.
  - apply in_app_or in Hc. destruct Hc as [Hc|[Hc|Hc]]; [right; apply in_or_app; auto|left; auto|right; apply in_or_app; auto].
  - rewrite skipn_app. rewrite skipn_all2 by lia. replace (S (length l1) - length l1)%nat with 1%nat by lia. reflexivity.
Qed.
Lemma binserted_rest {A} (b b2 : bia A) bit v x c : binserted b bit v x = Ok b2 -> In c (bvalues b) -> In c (bvalues b2).
Proof.
  unfold binserted. destruct (bit_insert _ _) as [bits|]; [|discriminate]. destruct (bit_index _ _) as [i|]; [|discriminate].
  intros Hb Hc. assert (Hv : bvalues b2 = values_insert (bvalues b) i v).
  { unfold new_bia in Hb. destruct (negb _); [discriminate|]. destruct (_ <=? _); [|discriminate]. injection Hb as <-. reflexivity. }
  rewrite Hv. unfold values_insert. rewrite <- (firstn_skipn (N.to_nat i) (bvalues b)) in Hc. apply in_app_or in Hc. apply in_or_app.
  destruct Hc; [left|right; right]; assumption.
Qed.

Section Ops.
Context {E : Env} {K V : Type} {KK : Key K}.
Notation heap := (heap K V).
Implicit Types (h : heap).

Lemma be_new_C h a c (child m : hnode) : nth_error h a = Some (CellC c) -> In child (bvalues c) -> below h child m -> below h (HC a) m.
Proof. apply be_C. Qed.
Lemma below_push h c n (m : hnode) : below h n m -> below (h ++ [c]) n m.
Proof. apply below_ext. exists [c]. reflexivity. Qed.
Lemma last_cell h (c : cell K V) : nth_error (h ++ [c]) (length h) = Some c.
Proof. rewrite nth_error_app2, Nat.sub_diag by lia. reflexivity. Qed.

Lemma hc_lift_stay fuel : forall h this tf right rf a h' c, hc_lift fuel h this tf right rf = Ret (a, h') ->
  below h this c \/ below h right c -> below h' (HC a) c.
Proof.
  induction fuel as [|fuel IH]; intros h this tf right rf a h' c H Hb; [discriminate|]. cbn [hc_lift] in H.
  apply bind_ret in H. destruct H as (z1 & _ & H). apply bind_ret in H. destruct H as (z2 & _ & H). destruct (_ =? _).
  - apply bind_ret in H. destruct H as (tn & _ & H). apply bind_ret in H. destruct H as (tn' & _ & H).
    apply bind_ret in H. destruct H as (rn & _ & H). apply bind_ret in H. destruct H as (rn' & _ & H).
    apply bind_ret in H. destruct H as ([a1 h3] & H3 & H). apply bind_ret in H. destruct H as (b & Hbia & H). injection H as <- <-.
    apply new_bia_inv in Hbia. subst b. eapply be_C; [apply last_cell|left; reflexivity|]. apply below_push. eapply IH; eassumption.
  - apply bind_ret in H. destruct H as (fl & _ & H). apply bind_ret in H. destruct H as (i & _ & H).
    apply bind_ret in H. destruct H as (b & Hbia & H). injection H as <- <-. apply new_bia_inv in Hbia. subst b.
    destruct Hb as [Hb|Hb]; (eapply be_C; [apply last_cell| |apply below_push, Hb]); destruct (i =? 0); cbn; auto.
Qed.
Lemma hl_lift_stay h x k v f n a prev h' c : hl_lift h x k v f = Ret (HInserted n a prev, h') -> below h (hnext_node x) c -> below h' n c.
Proof.
  unfold hl_lift. intros H Hb. apply bind_ret in H. destruct H as (tk & _ & H). destruct (_ =? _).
  - apply bind_ret in H. destruct H as ([b h1] & Hn & H). injection H as <- <- <- <-. unfold hl_new in Hn. apply bind_ret in Hn. destruct Hn as (z & _ & Hn).
    injection Hn as <- <-. eapply be_L; [apply last_cell|]. apply below_push, Hb.
  - apply bind_ret in H. destruct H as (tf & _ & H). apply bind_ret in H. destruct H as (tf' & _ & H). cbn [Heap.hs_new alloc others noise quiet] in H.
    apply bind_ret in H. destruct H as ([b h1] & Hn & H). injection H as <- <- <- <-. eapply hc_lift_stay; [exact Hn|]. left. apply below_push, Hb.
Qed.

(** All keys of a list have one hash. *)
Lemma list_hash {Q} {KQ : Key Q} h a l x c (q : Q) : rep_l h a l -> lwf x l -> below h (HL a) c -> starts h c q -> hashk q = x.
Proof.
  intros Hl (_ & _ & Hh) Hb Hs. destruct (rep_below _ _ _ Hb _ (rep_ML _ _ _ Hl)) as (tc & Hrc & Hin).
  destruct (starts_in _ _ _ _ Hs Hrc) as (e & He & Hec). unfold hashk. rewrite <- Hec. apply Hh, Hin, He.
Qed.

(** Below a handle there are trees; a list or a leaf has one hash. *)
Lemma below_hash h n c : below h n c -> forall t d p, rep h n t -> wf d p t ->
  exists tc, rep h c tc /\ incl (m_visit tc) (m_visit t) /\
    (match c with HC _ => True | _ => exists x, forall e, In e (m_visit tc) -> hash (ecls e) = x end).
Proof.
  induction 1 as [n|a c child m Hn Hi Hb IH|a k v next z m Hn Hb IH]; intros t d p Ht HW.
  - exists t. split; [exact Ht|]. split; [apply incl_refl|]. destruct n as [a|a|a]; [exact I| |].
    + inversion Ht; subst. inversion HW as [|? ? ? x Hw|]; subst. exists x. apply Hw.
    + inversion Ht as [| |? s Hs]; subst. exists (hashk (s_key s)). intros e [<-|[]]. reflexivity.
  - inversion Ht as [a0 bits hs ts x Hn' HF Hlt E1 E2| |]; subst. assert (c = BIA bits hs x) by congruence. subst c. cbn [bvalues] in Hi.
    destruct (in_forall2 _ _ _ _ HF Hi) as (tc & Htc & Hrc). inversion HW as [| |? ? ? ? ? Ho Hp Hok Hne Hx Hkid]; subst.
    destruct (in_values_get _ _ _ tc Hok Htc) as (i & _ & Hg).
    destruct (IH tc _ _ Hrc (Hkid _ _ Hg)) as (tm & Hrm & Hin & Hh). exists tm. split; [exact Hrm|]. split; [|exact Hh].
    intros e He. apply Hin in He. cbn [m_visit bvalues]. apply in_concat. exists (m_visit tc). split; [|exact He]. apply in_map, Htc.
  - inversion Ht as [|? l Hl|]; subst. inversion HW as [|? ? ? x Hw|]; subst.
    destruct (rep_below _ _ _ (be_L _ _ _ _ _ _ _ Hn Hb) _ Ht) as (tm & Hrm & Hin). exists tm. split; [exact Hrm|]. split; [exact Hin|].
    destruct m; [exact I| |]; exists x; intros e He; apply Hw, Hin, He.
Qed.

Section Query.
Context {Q Q' : Type} {KQ : Key Q} {KQ' : Key Q'}.

Lemma hs_same h a (q : Q) (q' : Q') e : get_s h a = Ret e -> keqb (fst e) q = true -> starts h (HS a) q' -> cls q' = cls q.
Proof.
  unfold get_s. intros He Hk (k & v & Hn & Hc). rewrite Hn in He. injection He as <-. apply keqb_true in Hk. cbn [fst] in Hk. congruence.
Qed.

(** ** insert and remove only add cells *)
Lemma grows_snoc {A} h c (o : outcome (A * heap)) : grows (h ++ [c]) o -> grows h o.
Proof. intros H a h' Ho. eapply ext_trans; [apply ext_snoc|exact (H a h' Ho)]. Qed.
Lemma hc_lift_grows fuel : forall h this tf right rf, grows h (hc_lift fuel h this tf right rf).
Proof.
  induction fuel as [|fuel IH]; intros h this tf right rf; cbn [hc_lift]; [gstep|]. do 2 (apply grows_pure; intros ?). destruct (_ =? _).
  - do 4 (apply grows_pure; intros ?). apply grows_bind; [apply IH|]. intros b h'. apply grows_pure. intros c. cbn [alloc others noise quiet]. apply (grows_snoc _ (CellC c)). gstep.
  - do 2 (apply grows_pure; intros ?). apply grows_pure. intros c. cbn [alloc others noise quiet]. apply (grows_snoc _ (CellC c)). gstep.
Qed.
Lemma hl_lift_grows h x k v f : grows h (hl_lift h x k v f).
Proof.
  unfold hl_lift. apply grows_pure. intros tk. destruct (_ =? _); [gstep|]. do 2 (apply grows_pure; intros ?). cbn [Heap.hs_new alloc others noise quiet].
  apply (grows_snoc _ (CellS k v)). apply grows_bind; [apply hc_lift_grows|intros; gstep].
Qed.
Lemma hl_remove_from_grows (q : Q) fuel : forall h a, grows h (hl_remove_from fuel h a q).
Proof.
  induction fuel as [|fuel IH]; intros h a; cbn [hl_remove_from]; [gstep|]. apply grows_pure. intros [[e x] z]. destruct (keqb _ _); [gstep|]. destruct x as [b|b].
  - apply grows_bind; [apply IH|]. intros [|y c] h'; gstep.
  - apply grows_pure. intros e'. destruct (keqb _ _); [|gstep]. cbn [Heap.hs_new alloc others noise quiet]. apply (grows_snoc _ (CellS (fst e) (snd e))). gstep.
Qed.
Lemma hs_insert_grows h b (q : Q) k v f replace : grows h (Heap.hs_insert h b q k v f replace).
Proof.
  unfold Heap.hs_insert. apply grows_pure. intros e. destruct (keqb _ _).
  - destruct replace; [|gstep]. cbn [Heap.hs_new alloc others noise quiet]. apply (grows_snoc _ (CellS k v)). gstep.
  - apply grows_pure. intros g. apply hl_lift_grows.
Qed.
Lemma hl_insert_grows fuel h b (q : Q) k v f replace : grows h (hl_insert fuel h b q k v f replace).
Proof.
  unfold hl_insert. apply grows_pure. intros [a|].
  - destruct replace; [|gstep]. apply grows_bind; [apply hl_remove_from_grows|]. intros [|y c] h'; gstep.
  - apply grows_pure. intros g. apply hl_lift_grows.
Qed.
Lemma h_insert_grows (q : Q) k v replace fuel : forall h n f, grows h (h_insert fuel h n q k v f replace).
Proof.
  induction fuel as [|fuel IH]; intros h n f; cbn [h_insert]; [gstep|]. destruct n as [b|b|b]; [|apply (hl_insert_grows (S fuel))|apply hs_insert_grows].
  apply grows_pure. intros self. apply grows_pure. intros g. destruct (bat self (fl_flag g)) as [child|e].
  - apply grows_pure. intros nx. apply grows_bind; [destruct child; [apply IH|apply hl_insert_grows|apply hs_insert_grows]|].
    intros [x|child2 x prev] h'; [gstep|]. apply grows_pure. intros size. apply grows_pure. intros c. cbn [alloc others noise quiet]. apply (grows_snoc _ (CellC c)). gstep.
  - cbn [Heap.hs_new alloc others noise quiet]. apply (grows_snoc _ (CellS k v)). apply grows_pure. intros c. apply (grows_snoc _ (CellC c)). gstep.
Qed.
Lemma h_remove_grows (q : Q) fuel : forall h n f, grows h (h_remove fuel h n q f).
Proof.
  induction fuel as [|fuel IH]; intros h n f; cbn [h_remove]; [gstep|]. destruct n as [b|b|b].
  - apply grows_pure. intros self. apply grows_pure. intros g. destruct (bat self (fl_flag g)) as [child|e]; [|gstep].
    apply grows_pure. intros nx. apply grows_bind; [apply IH|]. intros [|child2 x|x] h'; [gstep| |].
    + apply grows_pure. intros z. destruct (z =? 0); [gstep|]. apply grows_pure. intros size. apply grows_pure. intros c. cbn [alloc others noise quiet]. apply (grows_snoc _ (CellC c)). gstep.
    + destruct (_ =? _); [gstep|]. apply grows_pure. intros size. apply grows_pure. intros c. cbn [alloc others noise quiet]. apply (grows_snoc _ (CellC c)). gstep.
  - apply grows_bind; [apply (hl_remove_from_grows q (S fuel))|]. intros [|y c] h'; gstep.
  - apply grows_pure. intros e. gstep.
Qed.

(** A child of a branch that stands for a proper tree does too. *)
Lemma kid_rep h a self t d p child : nth_error h a = Some (CellC self) -> In child (bvalues self) -> rep h (HC a) t -> wf d p t ->
  exists tc d' p', rep h child tc /\ wf d' p' tc.
Proof.
  intros Hn Hi Hr HW. inversion Hr as [a0 bits hs ts x Hn' HF Hlt E1 E2| |]; subst. assert (self = BIA bits hs x) by congruence. subst self. cbn [bvalues] in Hi.
  destruct (in_forall2 _ _ _ _ HF Hi) as (tc & Htc & Hrc). inversion HW as [| |? ? ? ? ? Ho Hp Hok Hne Hx Hkid]; subst.
  destruct (in_values_get _ _ _ tc Hok Htc) as (i & _ & Hg). exists tc, (d + 1), (p + i * 2 ^ off d). split; [exact Hrc|]. apply Hkid, Hg.
Qed.

(** ** insert *)
Lemma h_insert_stay (q : Q) k v replace fuel : forall h n f t d p n' a prev h' c (q' : Q'),
  h_insert fuel h n q k v f replace = Ret (HInserted n' a prev, h') -> rep h n t -> wf d p t -> below h n c -> starts h c q' ->
  hashk q' <> hashk q \/ prev = None -> below h' n' c.
Proof.
  assert (Hleaf : forall h b f n' a prev h' c (q' : Q'), Heap.hs_insert h b q k v f replace = Ret (HInserted n' a prev, h') -> below h (HS b) c -> starts h c q' ->
    hashk q' <> hashk q \/ prev = None -> below h' n' c).
  { intros h b f n' a prev h' c q' H Hb Hs Hor. unfold Heap.hs_insert in H. apply bind_ret in H. destruct H as (e & He & H). destruct (keqb (fst e) q) eqn:Hk.
    - exfalso. destruct replace; [|discriminate]. injection H as _ _ <- _. destruct Hor as [Hne|Hne]; [|discriminate]. inversion Hb; subst.
      apply Hne. unfold hashk. f_equal. eapply hs_same; eassumption.
    - apply bind_ret in H. destruct H as (g & _ & H). eapply hl_lift_stay; [exact H|exact Hb]. }
  assert (Hlist : forall fuel h b f n' a prev h' c (q' : Q') l x, hl_insert fuel h b q k v f replace = Ret (HInserted n' a prev, h') -> rep_l h b l -> lwf x l ->
    below h (HL b) c -> starts h c q' -> hashk q' <> hashk q \/ prev = None -> below h' n' c).
  { intros fuel0 h b f n' a prev h' c q' l x H Hl Hw Hb Hs Hor. unfold hl_insert in H. apply bind_ret in H. destruct H as ([p|] & Hf & H).
    - exfalso. destruct replace; [|discriminate]. apply bind_ret in H. destruct H as ([[|y p2] h1] & _ & H); [discriminate|].
      apply bind_ret in H. destruct H as ([b1 h2] & _ & H). injection H as _ _ <- _. destruct Hor as [Hne|Hne]; [|discriminate].
      destruct (hl_find_starts _ _ _ _ _ Hf) as (c' & Hb' & _ & Hs'). apply Hne.
      rewrite (list_hash _ _ _ _ _ _ Hl Hw Hb Hs), (list_hash _ _ _ _ _ _ Hl Hw Hb' Hs'). reflexivity.
    - apply bind_ret in H. destruct H as (g & _ & H). eapply hl_lift_stay; [exact H|exact Hb]. }
  induction fuel as [|fuel IH]; intros h n f t d p n' a prev h' c q' H Hr HW Hb Hs Hor; [discriminate|]. cbn [h_insert] in H. destruct n as [b|b|b].
  - apply bind_ret in H. destruct H as (self & Hself & H). apply bind_ret in H. destruct H as (g & _ & H).
    assert (Hn : nth_error h b = Some (CellC self)).
    { unfold get_c in Hself. destruct (nth_error h b) as [[c0|? ? ? ?|? ?]|]; try discriminate. congruence. }
    inversion Hb as [n0|b0 c0 child m Hn0 Hi Hb0|]; subst; [destruct Hs|]. assert (c0 = self) by congruence. subst c0.
    destruct (bat self (fl_flag g)) as [child0|e] eqn:Hbat.
    + apply bind_ret in H. destruct H as (nx & _ & H). apply bind_ret in H. destruct H as ([r h1] & Hins & H). destruct r as [x|child2 x prev2]; [discriminate|].
      apply bind_ret in H. destruct H as (size & _ & H). apply bind_ret in H. destruct H as (b2 & Hb2 & H). cbn [alloc others noise quiet] in H. injection H as <- <- <- <-.
      assert (Hb2' : bupdated self (fl_flag g) child2 size = Ok b2) by (destruct (bupdated _ _ _ _); [cbn in Hb2; congruence|discriminate]).
      assert (He : ext h h1).
      { destruct child0 as [b1|b1|b1]; [apply (h_insert_grows _ _ _ _ _ _ _ _ _ _ Hins)|apply (hl_insert_grows _ _ _ _ _ _ _ _ _ _ Hins)|apply (hs_insert_grows _ _ _ _ _ _ _ _ _ Hins)]. }
      destruct (bupdated_rest _ _ _ _ _ _ _ Hbat Hb2' Hi) as [->|Hi2].
      * destruct (kid_rep _ _ _ _ _ _ _ Hn Hi Hr HW) as (tc & d' & p' & Hrc & HWc). eapply be_C; [apply last_cell|eapply bupdated_has, Hb2'|]. apply below_push.
        destruct child0 as [b1|b1|b1].
        -- eapply IH; eassumption.
        -- inversion Hrc; subst. inversion HWc; subst. eapply Hlist; eassumption.
        -- eapply Hleaf; eassumption.
      * eapply be_C; [apply last_cell|exact Hi2|]. apply below_push. eapply below_ext; eassumption.
    + cbn [Heap.hs_new alloc others noise quiet] in H. apply bind_ret in H. destruct H as (b2 & Hb2 & H). injection H as <- <- <- <-.
      assert (Hb2' : binserted self (fl_flag g) (HS (length h)) (bextra self + 1) = Ok b2) by (destruct (binserted _ _ _ _); [cbn in Hb2; congruence|discriminate]).
      eapply be_C; [apply last_cell|eapply binserted_rest; eassumption|]. apply below_push, below_push, Hb0.
  - inversion Hr; subst. inversion HW; subst. eapply (Hlist (S fuel)); eassumption.
  - eapply Hleaf; eassumption.
Qed.

(** ** remove *)
Lemma hl_remove_from_starts (q : Q) fuel : forall h a x p h', hl_remove_from fuel h a q = Ret (HLRemoved x p, h') -> exists c, below h (HL a) c /\ starts h c q.
Proof.
  induction fuel as [|fuel IH]; intros h a x p h' H; [discriminate|]. cbn [hl_remove_from] in H. unfold get_l in H.
  destruct (nth_error h a) as [[?|k v y z|? ?]|] eqn:Hn; cbn [bind] in H; try discriminate. cbn [fst] in H. destruct (keqb k q) eqn:Hk.
  - exists (HL a). split; [apply be_self|]. exists k, v, y, z. split; [exact Hn|apply keqb_true, Hk].
  - destruct y as [b|b].
    + apply bind_ret in H. destruct H as ([[|y c] h1] & Hr & H); [discriminate|]. destruct (IH _ _ _ _ _ Hr) as (d & Hd & Hs).
      exists d. split; [eapply be_L; [exact Hn|exact Hd]|exact Hs].
    + apply bind_ret in H. destruct H as (e' & He & H). destruct (keqb (fst e') q) eqn:Hk'; [|discriminate].
      exists (HS b). split; [eapply be_L; [exact Hn|apply be_self]|]. unfold get_s in He. destruct (nth_error h b) as [[?|? ? ? ?|k1 v1]|] eqn:Hn'; try discriminate.
      injection He as <-. exists k1, v1. split; [exact Hn'|apply keqb_true, Hk'].
Qed.
Lemma h_remove_starts (q : Q) fuel : forall h n f r h', h_remove fuel h n q f = Ret (r, h') -> r <> HNotFound -> exists c, below h n c /\ starts h c q.
Proof.
  induction fuel as [|fuel IH]; intros h n f r h' H Hr; [discriminate|]. cbn [h_remove] in H. destruct n as [b|b|b].
  - unfold get_c in H. destruct (nth_error h b) as [[self|? ? ? ?|? ?]|] eqn:Hn; cbn [bind] in H; try discriminate.
    apply bind_ret in H. destruct H as (g & _ & H). destruct (bat self (fl_flag g)) as [child|e] eqn:Hb; [|congruence].
    apply bind_ret in H. destruct H as (nx & _ & H). apply bind_ret in H. destruct H as ([r1 h1] & H1 & H).
    destruct (IH _ _ _ _ _ H1) as (c & Hc & Hs); [destruct r1; congruence|]. exists c. split; [|exact Hs]. eapply be_C; [exact Hn|eapply bat_in, Hb|exact Hc].
  - apply bind_ret in H. destruct H as ([[|y p] h1] & H1 & H); [congruence|]. eapply (hl_remove_from_starts q (S fuel)), H1.
  - unfold get_s in H. destruct (nth_error h b) as [[?|? ? ? ?|k v]|] eqn:Hn; cbn [bind] in H; try discriminate. cbn [fst] in H.
    destruct (keqb k q) eqn:Hk; [|congruence]. exists (HS b). split; [apply be_self|]. exists k, v. split; [exact Hn|apply keqb_true, Hk].
Qed.
Lemma h_remove_stay (q : Q) fuel : forall h n f t d p r h' c (q' : Q'),
  h_remove fuel h n q f = Ret (r, h') -> rep h n t -> wf d p t -> below h n c -> starts h c q' -> hashk q' <> hashk q ->
  match r with HNotFound => True | HRemoved n' _ => below h' n' c | HZ _ => False end.
Proof.
  induction fuel as [|fuel IH]; intros h n f t d p r h' c q' H Hr HW Hb Hs Hne; [discriminate|]. pose proof H as H0. cbn [h_remove] in H. destruct n as [b|b|b].
  - apply bind_ret in H. destruct H as (self & Hself & H). apply bind_ret in H. destruct H as (g & _ & H).
    assert (Hn : nth_error h b = Some (CellC self)).
    { unfold get_c in Hself. destruct (nth_error h b) as [[c0|? ? ? ?|? ?]|]; try discriminate. congruence. }
    inversion Hb as [n0|b0 c0 child m Hn0 Hi Hb0|]; subst; [destruct Hs|]. assert (c0 = self) by congruence. subst c0.
    destruct (bat self (fl_flag g)) as [child0|e] eqn:Hbat; [|injection H as <- _; exact I].
    apply bind_ret in H. destruct H as (nx & _ & H). apply bind_ret in H. destruct H as ([r1 h1] & Hrem & H).
    pose proof (h_remove_grows _ _ _ _ _ _ _ Hrem) as He.
    assert (Hin : child = child0 -> match r1 with HNotFound => True | HRemoved n' _ => below h1 n' c | HZ _ => False end).
    { intros ->. destruct (kid_rep _ _ _ _ _ _ _ Hn Hi Hr HW) as (tc & d' & p' & Hrc & HWc). eapply IH; eassumption. }
    destruct r1 as [|child2 x|x].
    + injection H as <- _. exact I.
    + apply bind_ret in H. destruct H as (z & _ & H). destruct (z =? 0); [discriminate|]. apply bind_ret in H. destruct H as (size & _ & H).
      apply bind_ret in H. destruct H as (b2 & Hb2 & H). cbn [alloc others noise quiet] in H. injection H as <- <-.
      assert (Hb2' : bupdated self (fl_flag g) child2 size = Ok b2) by (destruct (bupdated _ _ _ _); [cbn in Hb2; congruence|discriminate]).
      destruct (bupdated_rest _ _ _ _ _ _ _ Hbat Hb2' Hi) as [->|Hi2].
      * eapply be_C; [apply last_cell|eapply bupdated_has, Hb2'|]. apply below_push. apply Hin. reflexivity.
      * eapply be_C; [apply last_cell|exact Hi2|]. apply below_push. eapply below_ext; eassumption.
    + destruct (N.eqb_spec (bextra self) 1) as [H1|H1].
      * injection H as <- <-. exfalso. inversion Hr as [a0 bits hs ts y Hn' HF Hlt E1 E2| |]; subst. assert (self = BIA bits hs y) by congruence. subst self. cbn [bextra] in H1. subst y.
        inversion HW as [| |? ? ? ? ? Ho Hp Hok Hne' Hx Hkid]; subst.
        destruct (rep_below _ _ _ Hb _ Hr) as (tc & Hrc & Hinc). destruct (starts_in _ _ _ _ Hs Hrc) as (e & Hec & Hee). apply Hinc in Hec.
        destruct (h_remove_starts _ _ _ _ _ _ _ H0) as (c' & Hb' & Hs'); [discriminate|].
        destruct (rep_below _ _ _ Hb' _ Hr) as (tc' & Hrc' & Hinc'). destruct (starts_in _ _ _ _ Hs' Hrc') as (e' & Hec' & Hee'). apply Hinc' in Hec'.
        cbn [m_visit bvalues] in Hec, Hec'. destruct (concat (map m_visit ts)) as [|e1 [|e2 l]]; [destruct Hec| |unfold lenN in Hx; cbn in Hx; lia].
        destruct Hec as [<-|[]], Hec' as [<-|[]]. apply Hne. unfold hashk. congruence.
      * apply bind_ret in H. destruct H as (size & _ & H). apply bind_ret in H. destruct H as (b2 & Hb2 & H). cbn [alloc others noise quiet] in H. injection H as <- <-.
        assert (Hb2' : bremoved self (fl_flag g) size = Ok b2) by (destruct (bremoved _ _ _); [cbn in Hb2; congruence|discriminate]).
        destruct (bremoved_rest _ _ _ _ _ _ Hbat Hb2' Hi) as [->|Hi2]; [destruct (Hin eq_refl)|].
        eapply be_C; [apply last_cell|exact Hi2|]. apply below_push. eapply below_ext; eassumption.
  - apply bind_ret in H. destruct H as ([[|y p2] h1] & H1 & H); injection H as <- <-; [exact I|]. exfalso.
    destruct (hl_remove_from_starts _ _ _ _ _ _ _ H1) as (c' & Hb' & Hs'). inversion Hr as [|? l Hl|]; subst. inversion HW as [|? ? ? x Hw|]; subst. apply Hne.
    rewrite (list_hash _ _ _ _ _ _ Hl Hw Hb Hs), (list_hash _ _ _ _ _ _ Hl Hw Hb' Hs'). reflexivity.
  - apply bind_ret in H. destruct H as (e & He & H). injection H as <- <-. destruct (keqb (fst e) q) eqn:Hk; [|exact I]. inversion Hb; subst.
    apply Hne. unfold hashk. f_equal. eapply hs_same; eassumption.
Qed.
End Query.
End Ops.


Section Api.
Context {E : Env} {K V : Type} {KK : Key K} {R : Type}.
Context (rdef : R) (rd : R -> R -> R).
Notation heap := (heap K V).
Implicit Types (h : heap).

Theorem insert_found {Q Q'} {KQ : Key Q} {KQ' : Key Q'} (cs : list (hcall K V R)) h vs i n (into : Q -> K) q v replace n' a prev h' (q' : Q') b :
  lawful rdef rd [] [] cs h vs -> nth_error vs i = Some n -> cls (into q) = cls q ->
  hm_insert into h n q v replace = Ret (Ok (n', a, prev), h') -> hm_find h n q' = Ret (Ok b) ->
  hashk q' <> hashk q \/ prev = None -> hm_find h' n' q' = Ret (Ok b).
Proof.
  intros HL Hi Hq Ho Hf Hor. destruct (lawful_rep _ _ _ _ _ _ _ HL Hi) as (t & Ht & Hrt).
  destruct (hm_find_starts _ _ _ _ Hf) as (c & Hb & <- & Hs).
  pose proof (hm_insert_ok into h n t q v replace Ht) as Hr. rewrite Ho in Hr. inversion Hr as [x y Hrel E1 E2| |]; subst. symmetry in E2.
  destruct y as [[[t' e] prev']|]; [|destruct Hrel]. destruct Hrel as (He & Hr' & _).
  apply (hm_find_at h' n' q' c t'); [|eapply starts_ext; eassumption|exact Hr'|].
  - unfold hm_insert in Ho. apply bind_ret in Ho. destruct Ho as (f & _ & Ho). apply bind_ret in Ho. destruct Ho as ([r h1] & Hins & Ho).
    destruct r as [x|n1 x p1]; [discriminate|]. injection Ho as -> -> -> ->.
    eapply (h_insert_stay (KQ := KQ) (KQ' := KQ')); [exact Hins|exact Ht|exact (reachable_mwf _ Hrt)|exact Hb|exact Hs|exact Hor].
  - apply reachable_mwf. eapply (reach_insert K V KK Q KQ); [exact Hrt|exact Hq|exact E2].
Qed.

Theorem remove_found {Q Q'} {KQ : Key Q} {KQ' : Key Q'} (cs : list (hcall K V R)) h vs i n (q : Q) n' a h' (q' : Q') b :
  lawful rdef rd [] [] cs h vs -> nth_error vs i = Some n ->
  hm_remove h n q = Ret (Ok (n', a), h') -> hm_find h n q' = Ret (Ok b) ->
  hashk q' <> hashk q -> hm_find h' n' q' = Ret (Ok b).
Proof.
  intros HL Hi Ho Hf Hne. destruct (lawful_rep _ _ _ _ _ _ _ HL Hi) as (t & Ht & Hrt).
  destruct (hm_find_starts _ _ _ _ Hf) as (c & Hb & <- & Hs).
  pose proof (hm_remove_ok h n t q Ht) as Hr. rewrite Ho in Hr. inversion Hr as [x y Hrel E1 E2| |]; subst. symmetry in E2.
  destruct y as [[t' e]|]; [|destruct Hrel]. destruct Hrel as (He & Hr' & _).
  apply (hm_find_at h' n' q' c t'); [|eapply starts_ext; eassumption|exact Hr'|].
  - unfold hm_remove in Ho. apply bind_ret in Ho. destruct Ho as (f & _ & Ho). apply bind_ret in Ho. destruct Ho as ([r h1] & Hrem & Ho).
    pose proof (h_remove_stay (KQ := KQ) (KQ' := KQ') _ _ _ _ _ _ _ _ _ _ _ _ Hrem Ht (reachable_mwf _ Hrt) Hb Hs Hne) as Hst.
    destruct r as [|n1 x|x]; [discriminate| |destruct Hst]. injection Ho as -> -> ->. exact Hst.
  - apply reachable_mwf. eapply (reach_remove K V KK Q KQ); [exact Hrt|exact E2].
Qed.

(** What lies below a handle, read back. *)
Lemma sub_rep h d m : dbelow d m -> lies h d -> rep h (d_node d) (strip d) -> rep h (d_node m) (strip m).
Proof.
  induction 1 as [d|a bits vs x c m Hi Hb IH|l m Hb IH]; intros HL Hr; [exact Hr| |].
  - inversion HL as [? ? ? ? Hn HF| |]; subst. apply IH; [rewrite Forall_forall in HF; auto|]. cbn [d_node strip] in Hr.
    inversion Hr as [? ? hs ? ? Hn' HF' Hlt E1 E2| |]; subst. assert (hs = map d_node vs) by congruence. subst hs.
    clear - HF' Hi. induction vs as [|y vs IH]; [destruct Hi|]. cbn [map] in HF'. inversion HF'; subst. destruct Hi as [<-|Hi]; auto.
  - inversion HL as [|? Hl|]; subst. apply IH; [apply lies_next, Hl|]. cbn [d_node strip] in Hr. inversion Hr as [|? ? Hr'|]; subst.
    destruct l as [a k v l z|a k v s z]; cbn in *.
    + destruct (rep_LL_inv _ _ _ _ _ _ Hr') as (b & Hc & _ & Hrb). destruct Hl as (Hn & _). replace (dl_addr l) with b by congruence. constructor. exact Hrb.
    + destruct (rep_LS_inv _ _ _ _ _ _ Hr') as (b & Hc & _ & Hrb). destruct Hl as (Hn & _). replace (ds_addr s) with b by congruence. constructor. exact Hrb.
Qed.

Theorem transform_kept (cs : list (hcall K V R)) h vs i n st (op : transform_op (K * V) V R) n' r h' c l :
  lawful rdef rd [] [] cs h vs -> nth_error vs i = Some n -> hm_transform rdef rd st op h n = Ret (n', r, h') ->
  below h n c -> hm_visit h c = Ret l -> l <> [] -> touched op l = [] -> below h' n' c.
Proof.
  intros HL Hi Ho Hb Hv Hne Ht. destruct (lawful_rep _ _ _ _ _ _ _ HL Hi) as (t & Hr & Hrt).
  destruct (deref_ok h (fun _ => True) n t Hr (fun _ _ => I)) as (d & Hd & Hs & Hdn & _).
  destruct (h_deref_lies _ _ _ _ Hd) as (Hli & _). destruct (below_dbelow _ _ _ Hb d Hli Hdn) as (m & Hm & Hmc).
  pose proof (reachable_mwf _ Hrt) as HW. rewrite <- Hs in HW, Hr. rewrite <- Hdn in Hr.
  pose proof (sub_rep _ _ _ Hm Hli Hr) as Hrm. rewrite Hmc in Hrm. rewrite (hm_visit_ok _ _ _ Hrm) in Hv. injection Hv as Hv.
  unfold hm_transform in Ho. rewrite Hd in Ho. cbn [bind] in Ho. apply bind_ret in Ho. destruct Ho as ([x w] & Hx & Ho).
  pose proof (h_transform_grows _ _ _ _ _ _ _ _ Hx) as He.
  destruct op as [f|z|z].
  - assert (Hu : untouched f m).
    { intros e Hin. change (dvisit m = l) in Hv. rewrite Hv in Hin. eapply touched_nil; eassumption. }
    pose proof (h_transform_stay _ _ _ _ _ _ _ _ _ _ HW Hli Hx m Hm Hu) as Hh. rewrite Hmc in Hh. destruct x as [z|[y z|z]].
    + injection Ho as <- _ <-. eapply below_ext; eassumption.
    + cbn in Ho. injection Ho as <- _ <-. exact Hh.
    + destruct Hh.
  - assert (Hx' : x = HTU z).
    { destruct d as [a [bits values y]|[? ? ? ? ?|? ? ? ? ?]|[? ? ?]]; revert Hx; cbn; intros [= <- <-]; reflexivity. }
    subst x. injection Ho as <- _ <-. eapply below_ext; eassumption.
  - destruct l as [|e l]; [contradiction|discriminate].
Qed.

Theorem transform_found {Q} {KQ : Key Q} (cs : list (hcall K V R)) h vs i n st (op : transform_op (K * V) V R) n' r h' (q : Q) b l :
  lawful rdef rd [] [] cs h vs -> nth_error vs i = Some n -> hm_transform rdef rd st op h n = Ret (n', r, h') ->
  hm_find h n q = Ret (Ok b) -> hm_visit h n = Ret l -> (forall e, In e (touched op l) -> hash (cls (fst e)) <> hashk q) ->
  hm_find h' n' q = Ret (Ok b).
Proof.
  intros HL Hi Ho Hf Hv Ht. destruct (lawful_rep _ _ _ _ _ _ _ HL Hi) as (t & Hr & Hrt).
  destruct (hm_find_starts _ _ _ _ Hf) as (c & Hb & <- & Hs).
  destruct (below_hash _ _ _ Hb _ _ _ Hr (reachable_mwf _ Hrt)) as (tc & Hrc & Hin & Hone). rewrite (hm_visit_ok _ _ _ Hr) in Hv. injection Hv as Hv. unfold map_visit in Hv.
  assert (Hh : forall e, In e (m_visit tc) -> hash (ecls e) = hashk q).
  { destruct (starts_in _ _ _ _ Hs Hrc) as (e0 & Hi0 & He0). assert (Hx : exists x, forall e, In e (m_visit tc) -> hash (ecls e) = x).
    { destruct c; [destruct Hs|exact Hone|exact Hone]. }
    destruct Hx as (x & Hx). intros e Hie. rewrite (Hx e Hie), <- (Hx e0 Hi0), He0. reflexivity. }
  pose proof (hm_transform_ok rdef rd st op h n t Hr) as Hrel. rewrite Ho in Hrel. inversion Hrel as [x y ((He & Hr' & _) & _) E1 E2| |]; subst. symmetry in E2.
  destruct y as [[t' r'] o]. cbn [fst snd] in *.
  apply (hm_find_at h' n' q c t'); [|eapply starts_ext; eassumption|exact Hr'|].
  - eapply transform_kept; [exact HL|exact Hi|exact Ho|exact Hb|apply hm_visit_ok, Hrc| |].
    + destruct (starts_in _ _ _ _ Hs Hrc) as (e & Hec & _). intros Hn. unfold map_visit in Hn. rewrite Hn in Hec. exact Hec.
    + destruct (touched op (map_visit tc)) as [|e tl] eqn:Htc; [reflexivity|]. exfalso.
      assert (Hin' : In e (touched op (map_visit tc))) by (rewrite Htc; left; reflexivity). apply filter_In in Hin'. destruct Hin' as (Hie & Hte).
      apply (Ht e); [apply filter_In; split; [apply Hin, Hie|exact Hte]|]. apply Hh, Hie.
  - apply reachable_mwf. eapply reach_transform; [exact Hrt|exact E2].
Qed.
End Api.
