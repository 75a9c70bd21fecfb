(** The pointers and references that the operations return. *)
From Coq Require Import NArith Arith List Bool Lia Permutation.
From Verif Require Import Base Bia Node Spec SpecP Inv Profile Api ApiP Reach ReachP MapP Versions Heap SpecH HeapP HeapOpP HeapHist HeapHistP.
Import ListNotations.

Section Ptr.
Context {E : Env} {K V : Type} {KK : Key K}.
Notation heap := (heap K V).
Implicit Types (h : heap).

Lemma inside_HC h a bits hs x y : nth_error h a = Some (CellC (BIA bits hs x)) -> inside h (HC a) y ->
  y = a \/ exists c, In c hs /\ inside h c y.
Proof.
  intros Hn H. inversion H as [|a0 c child y0 Hn' Hc Hi|]; subst; [left; reflexivity|].
  rewrite Hn in Hn'. injection Hn' as <-. right. exists child. split; assumption.
Qed.
Lemma inside_HL h a k v nx z y : nth_error h a = Some (CellL k v nx z) -> inside h (HL a) y ->
  y = a \/ inside h (hnext_node nx) y.
Proof.
  intros Hn H. inversion H as [| |a0 k0 v0 nx0 z0 y0 Hn' Hi]; subst; [left; reflexivity|].
  rewrite Hn in Hn'. injection Hn' as <- <- <- <-. right. assumption.
Qed.
Lemma inside_HS h a y : inside h (HS a) y -> y = a.
Proof. intros H. inversion H; subst. reflexivity. Qed.

(** The cells that hold the entries, in the order of visit. *)
Definition leaves h (n : hnode) (l : list (K * V)) (xs : list addr) : Prop :=
  map (entry_at h) xs = map Some l /\
  (forall x, In x xs -> inside h n x) /\ (forall x, inside h n x -> entry_at h x <> None -> In x xs).

Lemma leaves_S h a s : rep_s h a s -> leaves h (HS a) (m_visit (MS s)) [a].
Proof.
  intros H. destruct H as [a k v Hn]. split; [|split].
  - cbn. unfold entry_at. rewrite Hn. reflexivity.
  - intros x [<-|[]]. apply (in_self h (HS a)).
  - intros x Hx _. left. symmetry. apply inside_HS in Hx. exact Hx.
Qed.

Lemma leaves_L h l : forall a, rep_l h a l -> exists xs, leaves h (HL a) (l_visit l) xs.
Proof.
  induction l as [k v l IH z|k v s z]; intros a H;
    [destruct (rep_LL_inv _ _ _ _ _ _ H) as (b & Hn & _ & Hr)|destruct (rep_LS_inv _ _ _ _ _ _ H) as (b & Hn & _ & Hr)].
  - destruct (IH b Hr) as (xs & H1 & H2 & H3). exists (a :: xs). split; [|split].
    + cbn [map l_visit]. rewrite H1. unfold entry_at at 1. rewrite Hn. reflexivity.
    + intros x [<-|Hx]; [apply (in_self h (HL a))|]. eapply in_L; [exact Hn|]. apply H2, Hx.
    + intros x Hx He. destruct (inside_HL _ _ _ _ _ _ _ Hn Hx) as [->|Hx']; [left; reflexivity|right; apply H3; assumption].
  - destruct (leaves_S h b s Hr) as (H1 & H2 & H3). exists [a; b]. split; [|split].
    + destruct s as [k' v']. cbn [map l_visit] in *. injection H1 as H1. rewrite H1. unfold entry_at at 1. rewrite Hn. reflexivity.
    + intros x [<-|Hx]; [apply (in_self h (HL a))|]. eapply in_L; [exact Hn|]. apply H2, Hx.
    + intros x Hx He. destruct (inside_HL _ _ _ _ _ _ _ Hn Hx) as [->|Hx']; [left; reflexivity|right; apply H3; assumption].
Qed.

Lemma leaves_ok h t : forall n, rep h n t -> exists xs, leaves h n (m_visit t) xs.
Proof.
  induction t as [bits values x IH|l|s] using mnode_ind'; intros n H.
  - inversion H as [a bits0 hs ts x0 Hn HF Hlt| |]; subst.
    assert (Hh : exists xs, map (entry_at h) xs = map Some (concat (map m_visit values)) /\
      (forall y, In y xs -> exists c, In c hs /\ inside h c y) /\
      (forall y c, In c hs -> inside h c y -> entry_at h y <> None -> In y xs)).
    { clear Hn Hlt H. induction HF as [|c t hs ts Hc HF IHF]; [exists []; cbn; repeat split; [contradiction|intros y c []]|].
      apply Forall_cons_iff in IH. destruct IH as (IHc & IH).
      destruct (IHc c Hc) as (ys & H1 & H2 & H3). destruct (IHF IH) as (xs & G1 & G2 & G3). exists (ys ++ xs). split; [|split].
      - cbn [map concat]. rewrite !map_app, H1, G1. reflexivity.
      - intros y Hy. apply in_app_iff in Hy. destruct Hy as [Hy|Hy].
        + exists c. split; [left; reflexivity|apply H2, Hy].
        + destruct (G2 y Hy) as (c' & Hc' & Hi). exists c'. split; [right; exact Hc'|exact Hi].
      - intros y c' [<-|Hc'] Hi He; apply in_app_iff; [left; apply H3; assumption|right; eapply G3; eassumption]. }
    destruct Hh as (xs & H1 & H2 & H3). exists xs. split; [|split].
    + exact H1.
    + intros y Hy. destruct (H2 y Hy) as (c & Hc & Hi). eapply in_C; [exact Hn|exact Hc|exact Hi].
    + intros y Hy He. destruct (inside_HC _ _ _ _ _ _ Hn Hy) as [->|(c & Hc & Hi)]; [|eapply H3; eassumption].
      exfalso. apply He. unfold entry_at. rewrite Hn. reflexivity.
  - inversion H as [|a l0 Hl|]; subst. destruct (leaves_L h l a Hl) as (xs & Hx). exists xs. exact Hx.
  - inversion H as [| |a s0 Hs]; subst. exists [a]. apply leaves_S, Hs.
Qed.

(** At most one cell holds an entry for a given key. *)
Lemma leaf_unique h n t a b e e' : rep h n t -> NoDup (map (fun e => cls (fst e)) (m_visit t)) ->
  at_ h n a e -> at_ h n b e' -> cls (fst e) = cls (fst e') -> a = b.
Proof.
  intros Ht HN (Ha & Hia) (Hb & Hib) Hc. destruct (leaves_ok h t n Ht) as (xs & H1 & _ & H3).
  assert (Hxa : In a xs) by (apply H3; congruence). assert (Hxb : In b xs) by (apply H3; congruence).
  destruct (In_nth_error _ _ Hxa) as (i & Hi). destruct (In_nth_error _ _ Hxb) as (j & Hj).
  assert (Hpos : forall i a e, nth_error xs i = Some a -> entry_at h a = Some e -> nth_error (m_visit t) i = Some e).
  { clear - H1. intros i a e Hi He. pose proof (f_equal (fun l => nth_error l i) H1) as Hx. cbn beta in Hx.
    rewrite (map_nth_error _ _ _ Hi), He in Hx. destruct (nth_error (m_visit t) i) as [e'|] eqn:Hn.
    - rewrite (map_nth_error _ _ _ Hn) in Hx. congruence.
    - apply nth_error_None in Hn. 
      assert (Hl : (i < length (map Some (m_visit t)))%nat) by (apply nth_error_Some; congruence). rewrite map_length in Hl. lia. }
  pose proof (Hpos _ _ _ Hi Ha) as Hi'. pose proof (Hpos _ _ _ Hj Hb) as Hj'.
  apply (map_nth_error (fun e => cls (fst e))) in Hi'. apply (map_nth_error (fun e => cls (fst e))) in Hj'.
  assert (Hij : i = j).
  { eapply (proj1 (NoDup_nth_error _) HN); [apply nth_error_Some; congruence|]. rewrite Hi', Hj'. congruence. }
  subst j. congruence.
Qed.

Lemma at_ext h h' n a e : at_ h n a e -> ext h h' -> at_ h' n a e.
Proof. intros (H1 & H2) He. split; [eapply entry_ext; eassumption|eapply inside_ext; eassumption]. Qed.

(** find returns the cell. *)
Lemma find_at {Q} {KQ : Key Q} h n t (q : Q) a e : reachable t -> rep h n t -> at_ h n a e -> cls (fst e) = cls q ->
  hm_find h n q = Ret (Ok a).
Proof.
  intros HR Ht Ha Hc. destruct (visit_exact _ HR) as (Hf & HN).
  assert (Hin : In e (map_visit t)).
  { destruct (leaves_ok h t n Ht) as (xs & H1 & _ & H3). destruct Ha as (Ha & Hia).
    assert (Hx : In (entry_at h a) (map (entry_at h) xs)) by (apply in_map, H3; congruence).
    rewrite H1, Ha in Hx. apply in_map_iff in Hx. destruct Hx as (e' & [= ->] & Hx). exact Hx. }
  pose proof (proj2 (Hf _ _ q e) (conj Hin Hc)) as Hm. pose proof (hm_find_ok h n t q Ht) as Hr. rewrite Hm in Hr.
  inversion Hr as [r r' Hrr E1 E2| |]; subst. destruct r as [b|]; [|contradiction].
  do 2 f_equal. eapply leaf_unique; [exact Ht|exact HN|exact Hrr|exact Ha|reflexivity].
Qed.

Section Hist.
Context {R : Type} (rdef : R) (rd : R -> R -> R).

Lemma later h vs cs h' vs' ts : hsteps rdef rd h vs cs h' vs' -> Forall2 (rep h) vs ts -> ext h h'.
Proof. intros H HF. apply (proj1 (hsteps_ok _ _ _ _ _ _ _ _ H HF)). Qed.

Lemma lawful_all cs h vs : lawful rdef rd [] [] cs h vs -> exists ts, Forall2 (rep h) vs ts /\ Forall reachable ts.
Proof. intros H. destruct (lawful_ok _ _ _ _ _ _ _ _ H start_ok (Forall_nil _)) as (_ & ts & _ & HF & HR). eauto. Qed.

Context {Q : Type} {KQ : Key Q}.

Theorem insert_pointer cs h vs i n into (q : Q) v replace n' a prev h' cs' h'' vs'' :
  lawful rdef rd [] [] cs h vs -> nth_error vs i = Some n -> cls (into q) = cls q ->
  hm_insert into h n q v replace = Ret (Ok (n', a, prev), h') -> hsteps rdef rd h' (vs ++ [n']) cs' h'' vs'' ->
  entry_at h'' a = Some (into q, v) /\ hm_find h'' n' q = Ret (Ok a) /\ inside h'' n' a /\ (length h <= a)%nat /\
  match prev with
  | Some p => hm_find h n q = Ret (Ok p) /\ inside h'' n p /\ exists e, entry_at h p = Some e /\ entry_at h'' p = Some e /\ cls (fst e) = cls q
  | None => exists e, hm_find h n q = Ret (Err e)
  end.
Proof.
  intros HL Hi Hq Ho Hs. destruct (lawful_all _ _ _ HL) as (ts & HF & HR). destruct (lawful_rep _ _ _ _ _ _ _ HL Hi) as (t & Ht & Hrt).
  pose proof (hm_insert_ok into h n t q v replace Ht) as Hr. rewrite Ho in Hr. inversion Hr as [r r' Hrr E1 E2| |]; subst.
  destruct r' as [[[t' e] prev']|]; [|contradiction]. destruct Hrr as (He & Ht' & _ & Ha & Hat & Hp & _).
  assert (He2 : ext h' h'').
  { eapply later; [exact Hs|]. apply forall2_snoc; [eapply rep_versions_ext; eassumption|exact Ht']. }
  symmetry in E2. pose proof (reachable_mwf _ Hrt) as HW.
  destruct (insert_inv _ _ _ _ _ _ HW Hq E2) as [(e' & _ & _ & [=])|(m' & [= -> -> ->] & HW' & _)].
  assert (Hrt' : reachable m') by (eapply reach_insert; eassumption).
  split; [apply (proj1 (at_ext _ _ _ _ _ Hat He2))|].
  split.
  { eapply find_at; [exact Hrt'|eapply rep_ext; eassumption|eapply at_ext; eassumption|exact Hq]. }
  split; [apply (proj2 (at_ext _ _ _ _ _ Hat He2))|]. split; [exact Ha|].
  inversion Hp as [p e Hpe E3 E4|E3 E4]; subst.
  - symmetry in E4. apply lookup_spec in E4; [|apply mwf_uniq; exact HW]. destruct E4 as (_ & Hc).
    split; [eapply find_at; [exact Hrt|exact Ht|exact Hpe|exact Hc]|]. pose proof (at_ext _ _ _ _ _ (at_ext _ _ _ _ _ Hpe He) He2) as Hpe2.
    split; [apply Hpe2|]. exists e. split; [apply Hpe|]. split; [apply Hpe2|exact Hc].
  - symmetry in E4. apply (find_err_iff _ q HW) in E4. pose proof (hm_find_ok h n t q Ht) as Hr2. rewrite E4 in Hr2.
    inversion Hr2 as [r r' Hrr E5 E6| |]; subst. destruct r; [contradiction|]. eauto.
Qed.

Theorem refused_pointer cs h vs i n into (q : Q) v replace a h' cs' h'' vs'' :
  lawful rdef rd [] [] cs h vs -> nth_error vs i = Some n -> cls (into q) = cls q ->
  hm_insert into h n q v replace = Ret (Err a, h') -> hsteps rdef rd h' vs cs' h'' vs'' ->
  h' = h /\ hm_find h n q = Ret (Ok a) /\ inside h'' n a /\
  exists e, entry_at h a = Some e /\ entry_at h'' a = Some e /\ cls (fst e) = cls q.
Proof.
  intros HL Hi Hq Ho Hs. destruct (lawful_all _ _ _ HL) as (ts & HF & HR). destruct (lawful_rep _ _ _ _ _ _ _ HL Hi) as (t & Ht & Hrt).
  pose proof (hm_insert_ok into h n t q v replace Ht) as Hr. rewrite Ho in Hr. inversion Hr as [r r' Hrr E1 E2| |]; subst.
  destruct r' as [[[t' e] prev']|e]; [contradiction|]. destruct Hrr as (-> & Hat).
  symmetry in E2. pose proof (reachable_mwf _ Hrt) as HW.
  destruct (insert_inv _ _ _ _ _ _ HW Hq E2) as [(e' & _ & HL' & [= ->])|(m' & [=] & _)].
  apply lookup_spec in HL'; [|apply mwf_uniq; exact HW]. destruct HL' as (_ & Hc).
  pose proof (later _ _ _ _ _ _ Hs HF) as He. pose proof (at_ext _ _ _ _ _ Hat He) as Hat2.
  split; [reflexivity|]. split; [eapply find_at; [exact Hrt|exact Ht|exact Hat|exact Hc]|]. split; [apply Hat2|]. exists e'. split; [apply Hat|]. split; [apply Hat2|exact Hc].
Qed.

Theorem find_pointer cs h vs i n (q : Q) a cs' h'' vs'' :
  lawful rdef rd [] [] cs h vs -> nth_error vs i = Some n -> hm_find h n q = Ret (Ok a) -> hsteps rdef rd h vs cs' h'' vs'' ->
  hm_find h'' n q = Ret (Ok a) /\ inside h'' n a /\ exists e, entry_at h a = Some e /\ entry_at h'' a = Some e /\ cls (fst e) = cls q.
Proof.
  intros HL Hi Ho Hs. destruct (lawful_all _ _ _ HL) as (ts & HF & HR). destruct (lawful_rep _ _ _ _ _ _ _ HL Hi) as (t & Ht & Hrt).
  pose proof (later _ _ _ _ _ _ Hs HF) as He.
  pose proof (hm_find_ok h n t q Ht) as Hr. rewrite Ho in Hr. inversion Hr as [r r' Hrr E1 E2| |]; subst.
  destruct r' as [e|]; [|contradiction]. symmetry in E2. apply (proj1 (visit_exact _ Hrt)) in E2. destruct E2 as (_ & Hc).
  pose proof (at_ext _ _ _ _ _ Hrr He) as Hat2.
  split; [eapply find_at; [exact Hrt|eapply rep_ext; eassumption|exact Hat2|exact Hc]|].
  split; [apply Hat2|]. exists e. split; [apply Hrr|]. split; [apply Hat2|exact Hc].
Qed.

Theorem remove_pointer cs h vs i n (q : Q) n' a h' cs' h'' vs'' :
  lawful rdef rd [] [] cs h vs -> nth_error vs i = Some n ->
  hm_remove h n q = Ret (Ok (n', a), h') -> hsteps rdef rd h' (vs ++ [n']) cs' h'' vs'' ->
  hm_find h n q = Ret (Ok a) /\ inside h'' n a /\ ~ inside h'' n' a /\
  exists e, entry_at h a = Some e /\ entry_at h'' a = Some e /\ cls (fst e) = cls q.
Proof.
  intros HL Hi Ho Hs. destruct (lawful_all _ _ _ HL) as (ts & HF & HR). destruct (lawful_rep _ _ _ _ _ _ _ HL Hi) as (t & Ht & Hrt).
  pose proof (hm_remove_ok h n t q Ht) as Hr. rewrite Ho in Hr. inversion Hr as [r r' Hrr E1 E2| |]; subst.
  destruct r' as [[t' e]|]; [|contradiction]. destruct Hrr as (He & Ht' & _ & Hat & _).
  assert (He2 : ext h' h'').
  { eapply later; [exact Hs|]. apply forall2_snoc; [eapply rep_versions_ext; eassumption|exact Ht']. }
  symmetry in E2. destruct (remove_exact _ q _ Hrt E2) as (_ & Hx). destruct (Hx _ _ eq_refl) as (Hf & Hf' & _).
  apply (proj1 (visit_exact _ Hrt)) in Hf. destruct Hf as (_ & Hc).
  pose proof (at_ext _ _ _ _ _ (at_ext _ _ _ _ _ Hat He) He2) as Hat2.
  assert (Hrt' : reachable t') by (eapply reach_remove; eassumption).
  split; [eapply find_at; [exact Hrt|exact Ht|exact Hat|exact Hc]|]. split; [apply Hat2|]. split.
  - intros Hin. assert (Ho2 : hm_find h'' n' q = Ret (Ok a)).
    { eapply find_at; [exact Hrt'|eapply rep_ext; eassumption|split; [apply Hat2|exact Hin]|exact Hc]. }
    pose proof (hm_find_ok h'' n' t' q (rep_ext _ _ _ _ Ht' He2)) as Hr2. rewrite Ho2, Hf' in Hr2.
    inversion Hr2; contradiction.
  - exists e. split; [apply Hat|]. split; [apply Hat2|exact Hc].
Qed.

End Hist.
End Ptr.
