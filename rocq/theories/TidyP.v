(** Lean tries have the fewest nodes and the least depth. *)
From Coq Require Import NArith Arith List Bool Lia ZifyBool ZifyN ZifyNat.
From Verif Require Import Base Words WordsP Flag FlagP Bia BiaP Node Spec SpecP Inv NodeP TrieP Api ApiP Trans Transform Joint SpecT SpecJ JointT Reach ReachP
  Profile Hist KeepP Lean LeanP Sides SidesP ShapeP OrderP SpecMem TransMapP.
Import ListNotations.
Open Scope N_scope.

Section Sums.

Definition total {A} (f : A -> N) (l : list A) : N := fold_right N.add 0 (map f l).

Lemma total_app {A} (f : A -> N) l l' : total f (l ++ l') = total f l + total f l'.
Proof. unfold total. induction l as [|a l IH]; cbn [app map fold_right]; [reflexivity|]. rewrite IH. lia. Qed.
Lemma total_olist {A B} (f : A -> N) (g : B -> N) (a : N -> option A) (b : N -> option B) l :
  (forall i x, a i = Some x -> exists y, b i = Some y /\ f x <= g y) ->
  total f (flat_map (fun i => olist (a i)) l) <= total g (flat_map (fun i => olist (b i)) l).
Proof.
  intros H. induction l as [|i l IH]; cbn [flat_map]; [reflexivity|]. rewrite !total_app.
  assert (Hi : total f (olist (a i)) <= total g (olist (b i))); [|lia].
  destruct (a i) as [x|] eqn:Ha; [|cbn; lia]. destruct (H i x Ha) as (y & -> & Hxy). cbn. lia.
Qed.

End Sums.

(** * The nodes of one trie *)
Section One.
Context {E : Env} {K V : Type} {KK : Key K}.

Lemma nodes_C bits (values : list (mnode K V)) x : nodes (shape_of (MC (BIA bits values x))) = 1 + total (fun c => nodes (shape_of c)) values.
Proof. cbn [shape_of nodes]. rewrite map_map. reflexivity. Qed.
Lemma nodes_leaf (n : mnode K V) d p : wf d p n -> rooted n = false -> nodes (shape_of n) = lenN (m_visit n).
Proof. intros HW HR. destruct (leaf_shape n d p HW HR) as (_ & h & _ & ->). reflexivity. Qed.
Lemma nodes_entries (n : mnode K V) : forall d p, wf d p n -> lenN (m_visit n) <= nodes (shape_of n).
Proof.
  induction n as [bits values x IH|l|s] using mnode_ind'; intros d p HW.
  2:{ rewrite (nodes_leaf _ d p HW eq_refl). lia. }
  2:{ rewrite (nodes_leaf _ d p HW eq_refl). lia. }
  rewrite nodes_C. destruct (wf_C_inv _ _ _ _ _ HW) as [Hok Hch]. cbn [m_visit].
  assert (Hc : forall c, In c values -> lenN (m_visit c) <= nodes (shape_of c)).
  { intros c Hc. rewrite Forall_forall in IH. destruct (in_values_get _ _ _ c Hok Hc) as (i & _ & Hi). exact (IH c Hc _ _ (Hch i c Hi)). }
  clear -Hc. enough (H : lenN (concat (map m_visit values)) <= total (fun c => nodes (shape_of c)) values) by lia.
  induction values as [|c vs IH]; [cbn; lia|]. cbn [map concat]. unfold lenN in *. rewrite app_length, Nat2N.inj_add.
  change (total (fun c => nodes (shape_of c)) (c :: vs)) with (nodes (shape_of c) + total (fun c => nodes (shape_of c)) vs).
  specialize (IH (fun c' H => Hc c' (or_intror H))). specialize (Hc c (or_introl eq_refl)). lia.
Qed.

End One.

(** * Two tries, the keys of one among those of the other *)
Section Two.
Context {E : Env} {K V L W : Type} {KK : Key K} {KL : Key L}.

Definition sub_keys (n : list (K * V)) (n' : list (L * W)) : Prop :=
  forall e, In e n -> exists e', In e' n' /\ cls (fst e') = cls (fst e).

Lemma sub_len (l : list (K * V)) (l' : list (L * W)) : uniq l -> sub_keys l l' -> lenN l <= lenN l'.
Proof.
  intros HU HS. unfold lenN. rewrite <- (map_length ecls l), <- (map_length ecls l').
  enough (H : (length (map ecls l) <= length (map ecls l'))%nat) by lia.
  apply NoDup_incl_length; [exact HU|]. intros c Hc. apply in_map_iff in Hc. destruct Hc as (e & <- & He).
  destruct (HS e He) as (e' & He' & Hc). apply in_map_iff. exists e'. split; [exact Hc|exact He'].
Qed.

Lemma sub_leaf (n : mnode K V) (n' : mnode L W) d p d' p' : wf d p n -> lean n = true -> rooted n = true -> wf d' p' n' -> rooted n' = false ->
  sub_keys (m_visit n) (m_visit n') -> False.
Proof.
  intros HW HL HR HW' HR' HS. destruct (lean_two n d p HW HL HR) as (a & b & Ha & Hb & Hab).
  destruct (leaf_shape n' d' p' HW' HR') as (_ & h & Hh & _). apply Hab.
  destruct (HS a Ha) as (a' & Ha' & Ca). destruct (HS b Hb) as (b' & Hb' & Cb).
  unfold ecls. rewrite <- Ca, <- Cb. change (hash (ecls a') = hash (ecls b')). rewrite !Hh by assumption. reflexivity.
Qed.

(** Slot by slot. *)
Lemma sub_slot d p bits (values : list (mnode K V)) x bits' (values' : list (mnode L W)) x' :
  wf d p (MC (BIA bits values x)) -> wf d p (MC (BIA bits' values' x')) ->
  sub_keys (m_visit (MC (BIA bits values x))) (m_visit (MC (BIA bits' values' x'))) ->
  forall i c, getv bits values i = Some c -> exists c', getv bits' values' i = Some c' /\ sub_keys (m_visit c) (m_visit c').
Proof.
  intros HW HW' HS i c Hc.
  assert (Hfull : exists c', getv bits' values' i = Some c').
  { apply (slot_full d p bits' values' x' i HW'). destruct (proj1 (slot_full d p bits values x i HW) (ex_intro _ c Hc)) as (e & He & Hi).
    destruct (HS e He) as (e' & He' & Ce). exists e'. split; [exact He'|]. unfold ecls. rewrite Ce. exact Hi. }
  destruct Hfull as (c' & Hc'). exists c'. split; [exact Hc'|]. intros e He. apply (child_entries _ _ _ _ _ _ _ HW Hc) in He. destruct He as [He Hi].
  destruct (HS e He) as (e' & He' & Ce). exists e'. split; [|exact Ce]. apply (child_entries _ _ _ _ _ _ _ HW' Hc'). split; [exact He'|].
  unfold ecls. rewrite Ce. exact Hi.
Qed.

Lemma nodes_CC d p bits (values : list (mnode K V)) x bits' (values' : list (mnode L W)) x' :
  wf d p (MC (BIA bits values x)) -> wf d p (MC (BIA bits' values' x')) ->
  (forall i c c', getv bits values i = Some c -> getv bits' values' i = Some c' -> sub_keys (m_visit c) (m_visit c') -> nodes (shape_of c) <= nodes (shape_of c')) ->
  sub_keys (m_visit (MC (BIA bits values x))) (m_visit (MC (BIA bits' values' x'))) ->
  nodes (shape_of (MC (BIA bits values x))) <= nodes (shape_of (MC (BIA bits' values' x'))).
Proof.
  intros HW HW' Hrec HS. rewrite !nodes_C. destruct (wf_C_inv _ _ _ _ _ HW) as [Hok _]. destruct (wf_C_inv _ _ _ _ _ HW') as [Hok' _].
  enough (H : total (fun c => nodes (shape_of c)) values <= total (fun c => nodes (shape_of c)) values') by lia.
  rewrite (values_slots _ _ _ Hok), (values_slots _ _ _ Hok'). unfold slots. apply total_olist. intros i c Hc.
  destruct (sub_slot d p bits values x bits' values' x' HW HW' HS i c Hc) as (c' & Hc' & Hs). exists c'. split; [exact Hc'|]. exact (Hrec i c c' Hc Hc' Hs).
Qed.

Lemma nodes_lean (n : mnode K V) : forall (n' : mnode L W) d p, wf d p n -> wf d p n' -> lean n = true ->
  sub_keys (m_visit n) (m_visit n') -> nodes (shape_of n) <= nodes (shape_of n').
Proof.
  induction n as [bits values x IH|l|s] using mnode_ind'; intros n' d p HW HW' HL HS.
  2,3: rewrite (nodes_leaf _ d p HW eq_refl); pose proof (sub_len _ _ (wf_uniq _ _ _ HW) HS); pose proof (nodes_entries n' d p HW'); lia.
  destruct n' as [[bits' values' x']|l|s]; [|exfalso; eapply (sub_leaf (MC (BIA bits values x))); eauto; fail..].
  rewrite Forall_forall in IH. destruct (wf_C_inv _ _ _ _ _ HW) as [_ Hch]. destruct (wf_C_inv _ _ _ _ _ HW') as [_ Hch'].
  eapply nodes_CC; [exact HW|exact HW'| |exact HS]. intros i c c' Hg Hg' Hk.
  apply (IH c (getv_in _ _ _ _ Hg) c' _ _ (Hch i c Hg) (Hch' i c' Hg')); [|exact Hk].
  eapply child_lean; [apply lean_kids; exact HL|eapply getv_in; exact Hg].
Qed.

(** The depth of an entry. *)
Lemma depth_CC d p bits (values : list (mnode K V)) x bits' (values' : list (mnode L W)) x' j y e j' y' e' :
  wf d p (MC (BIA bits values x)) -> wf d p (MC (BIA bits' values' x')) ->
  (forall i c c' k k', getv bits values i = Some c -> getv bits' values' i = Some c' -> sub_keys (m_visit c) (m_visit c') ->
    In (k, y) (leaves c) -> In (k', y') (leaves c') -> k <= k') ->
  sub_keys (m_visit (MC (BIA bits values x))) (m_visit (MC (BIA bits' values' x'))) ->
  In (j, y) (leaves (MC (BIA bits values x))) -> In e (next_visit y) ->
  In (j', y') (leaves (MC (BIA bits' values' x'))) -> In e' (next_visit y') -> cls (fst e') = cls (fst e) -> j <= j'.
Proof.
  intros HW HW' Hrec HS Hy He Hy' He' Hc. destruct (leaves_inv _ _ _ _ _ Hy) as (c & k & Hcin & Hk & ->). destruct (leaves_inv _ _ _ _ _ Hy') as (c' & k' & Hcin' & Hk' & ->).
  destruct (wf_C_inv _ _ _ _ _ HW) as [Hok _]. destruct (wf_C_inv _ _ _ _ _ HW') as [Hok' _].
  destruct (in_values_get _ _ _ c Hok Hcin) as (i & _ & Hi). destruct (in_values_get _ _ _ c' Hok' Hcin') as (i' & _ & Hi').
  pose proof (wf_C_idx _ _ _ _ _ _ _ _ HW Hi (leaf_sub c k y e Hk He)) as H1. pose proof (wf_C_idx _ _ _ _ _ _ _ _ HW' Hi' (leaf_sub c' k' y' e' Hk' He')) as H2.
  unfold ecls in H1, H2. rewrite Hc, H1 in H2. subst i'.
  destruct (sub_slot d p bits values x bits' values' x' HW HW' HS i c Hi) as (c'' & Hc'' & Hs). rewrite Hi' in Hc''. injection Hc'' as <-.
  pose proof (Hrec i c c' k k' Hi Hi' Hs Hk Hk'). lia.
Qed.

Lemma depth_lean (n : mnode K V) : forall (n' : mnode L W) d p j y e j' y' e', wf d p n -> wf d p n' -> lean n = true ->
  sub_keys (m_visit n) (m_visit n') -> In (j, y) (leaves n) -> In e (next_visit y) ->
  In (j', y') (leaves n') -> In e' (next_visit y') -> cls (fst e') = cls (fst e) -> j <= j'.
Proof.
  induction n as [bits values x IH|l|s] using mnode_ind'; intros n' d p j y e j' y' e' HW HW' HL HS Hy He Hy' He' Hc.
  2,3: destruct Hy as [[= <- _]|[]]; lia.
  destruct n' as [[bits' values' x']|l|s]; [|exfalso; eapply (sub_leaf (MC (BIA bits values x))); eauto; fail..].
  rewrite Forall_forall in IH. destruct (wf_C_inv _ _ _ _ _ HW) as [_ Hch]. destruct (wf_C_inv _ _ _ _ _ HW') as [_ Hch'].
  refine (depth_CC d p bits values x bits' values' x' j y e j' y' e' HW HW' _ HS Hy He Hy' He' Hc). intros i c c' k k' Hg Hg' Hk Hl Hl'.
  refine (IH c (getv_in _ _ _ _ Hg) c' _ _ k y e k' y' e' (Hch i c Hg) (Hch' i c' Hg') _ Hk Hl He Hl' He' Hc).
  eapply child_lean; [apply lean_kids; exact HL|eapply getv_in; exact Hg].
Qed.

Lemma level_le (m : trie K V) (m' : trie L W) (z : N) : mwf m -> mwf m' -> sub_keys (map_visit m) (map_visit m') ->
  (forall j y e j' y' e', In (j, y) (leaves m) -> In e (next_visit y) -> In (j', y') (leaves m') -> In e' (next_visit y') -> cls (fst e') = cls (fst e) -> j <= j' + z) ->
  forall e, In e (map_visit m) -> level m (cls (fst e)) <= level m' (cls (fst e)) + z.
Proof.
  intros HW HW' HS H e He. destruct (HS e He) as (e' & He' & Hc). destruct (entry_leaf m e He) as (j & y & Hy & Hey). destruct (entry_leaf m' e' He') as (j' & y' & Hy' & Hey').
  unfold level at 1. rewrite (place_leaf m j y e (mwf_uniq _ HW) Hy Hey). rewrite <- Hc. unfold level. rewrite (place_leaf m' j' y' e' (mwf_uniq _ HW') Hy' Hey').
  exact (H j y e j' y' e' Hy Hey Hy' Hey' Hc).
Qed.

(** * Maps *)
(** The root may be a branch without need. *)
Definition spare (m : trie K V) (m' : trie L W) : N := if rooted m && negb (rooted m') then 1 else 0.

Theorem nodes_unpruned (m : trie K V) (m' : trie L W) : unpruned m -> reachable m' -> sub_keys (map_visit m) (map_visit m') ->
  nodes (shape_of m) <= nodes (shape_of m') + spare m m'.
Proof.
  intros HU HR HS. pose proof (unpruned_kids m HU) as HK. pose proof (reachable_mwf _ (unpruned_reachable _ HU)) as HW. pose proof (reachable_mwf _ HR) as HW'.
  destruct m as [[bits values x]|l|s].
  2,3: unfold spare; cbn [rooted andb]; rewrite N.add_0_r; exact (nodes_lean _ m' 0 0 HW HW' eq_refl HS).
  destruct (wf_C_inv _ _ _ _ _ HW) as [Hok Hch].
  destruct (rooted m') eqn:Hm'; unfold spare; rewrite Hm'; cbn [rooted andb negb].
  - destruct m' as [[bits' values' x']|l|s]; [|discriminate..]. destruct (wf_C_inv _ _ _ _ _ HW') as [_ Hch']. rewrite N.add_0_r.
    eapply nodes_CC; [exact HW|exact HW'| |exact HS]. intros i c c' Hg Hg' Hk. apply (nodes_lean c c' _ _ (Hch i c Hg) (Hch' i c' Hg')); [|exact Hk].
    eapply child_lean; [exact HK|eapply getv_in; exact Hg].
  - rewrite (nodes_leaf m' 0 0 HW' Hm'). rewrite nodes_C. pose proof (sub_len _ _ (mwf_uniq _ HW) HS) as Hlen.
    destruct (leaf_shape m' 0 0 HW' Hm') as (_ & h & Hh & _).
    assert (Hall : forall e, In e (m_visit (MC (BIA bits values x))) -> hash (ecls e) = h).
    { intros e He. destruct (HS e He) as (e' & He' & Ce). unfold ecls. rewrite <- Ce. exact (Hh e' He'). }
    assert (Hleaf : forall c, In c values -> nodes (shape_of c) = lenN (m_visit c)).
    { intros c Hc. destruct (in_values_get _ _ _ c Hok Hc) as (i & _ & Hi). pose proof (Hch i c Hi) as Hwc.
      apply (nodes_leaf c _ _ Hwc). destruct (rooted c) eqn:Hrc; [exfalso|reflexivity].
      destruct (lean_two c _ _ Hwc (child_lean _ _ _ _ HK Hc) Hrc) as (a & b & Ha & Hb & Hab). apply Hab.
      rewrite !Hall; [reflexivity|apply (child_entries _ _ _ _ _ _ _ HW Hi); exact Hb|apply (child_entries _ _ _ _ _ _ _ HW Hi); exact Ha]. }
    assert (Hsum : total (fun c => nodes (shape_of c)) values = lenN (m_visit (MC (BIA bits values x)))).
    { clear -Hleaf. cbn [m_visit]. induction values as [|c vs IH]; [reflexivity|]. cbn [map concat]. unfold lenN in *. rewrite app_length, Nat2N.inj_add.
      rewrite <- (IH (fun c' H => Hleaf c' (or_intror H))), <- (Hleaf c (or_introl eq_refl)). reflexivity. }
    unfold map_visit in Hlen. lia.
Qed.

Theorem level_unpruned (m : trie K V) (m' : trie L W) : unpruned m -> reachable m' -> sub_keys (map_visit m) (map_visit m') ->
  forall e, In e (map_visit m) -> level m (cls (fst e)) <= level m' (cls (fst e)) + spare m m'.
Proof.
  intros HU HR HS. pose proof (unpruned_kids m HU) as HK. pose proof (reachable_mwf _ (unpruned_reachable _ HU)) as HW. pose proof (reachable_mwf _ HR) as HW'.
  apply (level_le m m' _ HW HW' HS). intros j y e j' y' e' Hy He Hy' He' Hc. destruct m as [[bits values x]|l|s].
  2,3: destruct Hy as [[= <- _]|[]]; lia.
  destruct (wf_C_inv _ _ _ _ _ HW) as [Hok Hch]. destruct (rooted m') eqn:Hm'; unfold spare; rewrite Hm'; cbn [rooted andb negb].
  - destruct m' as [[bits' values' x']|l|s]; [|discriminate..]. destruct (wf_C_inv _ _ _ _ _ HW') as [_ Hch']. rewrite N.add_0_r.
    refine (depth_CC 0 0 bits values x bits' values' x' j y e j' y' e' HW HW' _ HS Hy He Hy' He' Hc). intros i c c' k k' Hg Hg' Hk Hl Hl'.
    refine (depth_lean c c' _ _ k y e k' y' e' (Hch i c Hg) (Hch' i c' Hg') _ Hk Hl He Hl' He' Hc).
    eapply child_lean; [exact HK|eapply getv_in; exact Hg].
  - destruct (leaves_inv _ _ _ _ _ Hy) as (c & k & Hcin & Hk & ->). destruct (in_values_get _ _ _ c Hok Hcin) as (i & _ & Hi). pose proof (Hch i c Hi) as Hwc.
    destruct c as [b|l|s]; [exfalso|destruct Hk as [[= <- _]|[]]; lia..].
    destruct (lean_two (MC b) _ _ Hwc (child_lean _ _ _ _ HK Hcin) eq_refl) as (a & b' & Ha & Hb & Hab). apply Hab.
    destruct (leaf_shape m' 0 0 HW' Hm') as (_ & h & Hh & _).
    apply (child_entries _ _ _ _ _ _ _ HW Hi) in Ha. apply (child_entries _ _ _ _ _ _ _ HW Hi) in Hb.
    destruct (HS a (proj1 Ha)) as (a1 & Ha1 & Ca). destruct (HS b' (proj1 Hb)) as (b1 & Hb1 & Cb). unfold ecls. rewrite <- Ca, <- Cb.
    transitivity h; [exact (Hh a1 Ha1)|symmetry; exact (Hh b1 Hb1)].
Qed.

(** A transmuted trie has no branch at its root without need, unless it is empty. *)
Definition tidy (m : trie K V) : Prop := lean m = true \/ map_visit m = [].

Theorem nodes_tidy (m : trie K V) (m' : trie L W) : unpruned m -> tidy m -> reachable m' -> sub_keys (map_visit m) (map_visit m') ->
  nodes (shape_of m) <= nodes (shape_of m') /\ forall e, In e (map_visit m) -> level m (cls (fst e)) <= level m' (cls (fst e)).
Proof.
  intros HU HT HR HS. pose proof (reachable_mwf _ (unpruned_reachable _ HU)) as HW. pose proof (reachable_mwf _ HR) as HW'. destruct HT as [HL|HE].
  - split; [exact (nodes_lean m m' 0 0 HW HW' HL HS)|]. intros e He.
    pose proof (level_le m m' 0 HW HW' HS) as H. rewrite <- (N.add_0_r (level m' _)). apply H; [|exact He].
    intros j y e0 j' y' e' Hy He0 Hy' He' Hc. rewrite N.add_0_r. exact (depth_lean m m' 0 0 j y e0 j' y' e' HW HW' HL HS Hy He0 Hy' He' Hc).
  - split; [|rewrite HE; intros e []].
    destruct (rooted m') eqn:Hm'.
    + pose proof (nodes_unpruned m m' HU HR HS) as H. unfold spare in H. rewrite Hm', andb_false_r, N.add_0_r in H. exact H.
    + pose proof (nodes_leaf m' 0 0 HW' Hm') as Hn. destruct (leaf_shape m' 0 0 HW' Hm') as (Hne & _).
      destruct m as [[bits values x]|l|s]; [|exfalso; destruct l; discriminate|exfalso; discriminate].
      assert (Hv : values = []).
      { destruct values as [|c vs]; [reflexivity|exfalso]. destruct (wf_C_inv _ _ _ _ _ HW) as [Hok Hch].
        destruct (in_values_get _ _ _ c Hok (or_introl eq_refl)) as (i & _ & Hi). pose proof (wf_nonempty _ _ _ (Hch i c Hi) ltac:(lia)) as Hc.
        unfold map_visit in HE. cbn [m_visit map concat] in HE. apply app_eq_nil in HE. apply Hc. apply HE. }
      rewrite Hn, nodes_C, Hv. cbn. unfold lenN. destruct (m_visit m'); [contradiction|cbn; lia].
Qed.

End Two.

Section Root.
Context {E : Env} {K V L W : Type} {KK : Key K} {KL : Key L}.

Lemma tidy_root (m : trie K V) (m' : trie L W) : reachable m -> reachable m' -> tidy m -> tidy m' ->
  same_keys (map_visit m) (map_visit m') -> rooted m = rooted m'.
Proof.
  assert (H1 : forall A B C D (KA : Key A) (KC : Key C) (a : trie A B) (b : trie C D), reachable a -> reachable b -> tidy a ->
    same_keys (map_visit a) (map_visit b) -> rooted a = true -> rooted b = true).
  { intros A B C D KA KC a b HA HB HT HS HR. destruct (rooted b) eqn:Hb; [reflexivity|exfalso]. pose proof (reachable_mwf _ HA) as HW. pose proof (reachable_mwf _ HB) as HW'.
    destruct HT as [HL|HE]; [exact (one_hash_two a b 0 0 0 0 HW HL HR HW' Hb HS)|].
    destruct (leaf_shape b 0 0 HW' Hb) as (Hne & _). unfold map_visit in HS, HE. destruct (m_visit b) as [|e l]; [contradiction|].
    destruct (proj2 (HS (cls (fst e))) (ex_intro _ e (conj (or_introl eq_refl) eq_refl))) as (e' & He' & _). rewrite HE in He'. exact He'. }
  intros HR HR' HT HT' HS. destruct (rooted m) eqn:Hm; destruct (rooted m') eqn:Hm'; try reflexivity.
  - rewrite (H1 _ _ _ _ _ _ m m' HR HR' HT HS Hm) in Hm'. discriminate.
  - rewrite (H1 _ _ _ _ _ _ m' m HR' HR HT' (fun c => iff_sym (HS c)) Hm') in Hm. discriminate.
Qed.
Theorem tidy_shape (m : trie K V) (m' : trie L W) : unpruned m -> unpruned m' -> tidy m -> tidy m' ->
  same_keys (map_visit m) (map_visit m') -> shape_of m = shape_of m'.
Proof. intros HU HU' HT HT' HS. apply same_shape; [exact HU|exact HU'| |exact HS]. apply tidy_root; [apply unpruned_reachable; exact HU|apply unpruned_reachable; exact HU'|assumption..]. Qed.
Lemma nres_tidy {R} (n : nres K V R) : nlean n -> tidy (fst (nres_trie n)).
Proof. destruct n; cbn [nlean nres_trie fst]; intros H; [left; exact H|left; reflexivity|left; reflexivity|right; reflexivity]. Qed.

End Root.

(** * What transmute makes *)
Section Transmute.
Context {E : Env} {K V S X R : Type} {KK : Key K} {KS : Key S} (rdef : R) (rd : R -> R -> R).

Lemma transmute_tidy (op : transmute_op (K * V) S X R) (m : trie K V) (m' : trie S X) r : map_transmute rdef rd op m = Ret (m', r) -> tidy m'.
Proof.
  unfold map_transmute. destruct (m_transmute _ _ _ _) as [n| |] eqn:Hn; cbn [bind]; [|discriminate..]. intros H.
  pose proof (nres_tidy n (m_transmute_lean rdef rd op m n Hn)) as HT. injection H as H. rewrite H in HT. exact HT.
Qed.
Lemma mm_tidy {L W} {KL : Key L} both lop rop (m : trie K V) (right : trie L W) (m' : trie S X) r : map_mm rdef rd both lop rop m right = Ret (m', r) -> tidy m'.
Proof.
  unfold map_mm. destruct (m_mm _ _ _ _ _ _ _ _) as [n| |] eqn:Hn; cbn [bind]; [|discriminate..]. intros H.
  pose proof (nres_tidy n (m_mm_lean rdef rd both lop rop m right 0 n Hn)) as HT. injection H as H. rewrite H in HT. exact HT.
Qed.
Lemma transform_tidy st (op : transform_op (K * V) V R) (m m' : trie K V) r : unpruned m -> map_transform rdef rd st op m = Ret (m', r, Other) -> tidy m'.
Proof.
  intros HU. unfold map_transform. destruct (m_transform _ _ _ _ _) as [t| |] eqn:Ht; cbn [bind]; [|discriminate..]. intros H.
  pose proof (m_transform_lean rdef rd st op m (unpruned_kids m HU) t Ht) as Hl. destruct t as [z|n]; [discriminate|].
  pose proof (nres_tidy n Hl) as HT. injection H as H. rewrite H in HT. exact HT.
Qed.

Lemma tm_tidy {L W} {KL : Key L} st both lop rop (m : trie K V) (right : trie L W) m' r : unpruned m -> map_tm (R := R) rdef rd st both lop rop m right = Ret (m', r, Other) -> tidy m'.
Proof.
  intros HU. unfold map_tm. destruct (m_tm _ _ _ _ _ _ _ _ _) as [t| |] eqn:Ht; cbn [bind]; [|discriminate..]. intros H.
  pose proof (m_tm_lean rdef rd st both lop rop m right 0 (unpruned_kids m HU) t Ht) as Hl. destruct t as [z|n]; [discriminate|].
  pose proof (nres_tidy n Hl) as HT. injection H as H. rewrite H in HT. exact HT.
Qed.
Lemma mt_tidy {L W} {KL : Key L} st both lop rop (m : trie K V) (right : trie L W) m' r : unpruned right -> map_mt (R := R) rdef rd st both lop rop m right = Ret (m', r, Other) -> tidy m'.
Proof.
  intros HU. unfold map_mt. destruct (m_mt _ _ _ _ _ _ _ _ _) as [t| |] eqn:Ht; cbn [bind]; [|discriminate..]. intros H.
  pose proof (m_mt_lean rdef rd st both lop rop m right 0 (unpruned_kids right HU) t Ht) as Hl. destruct t as [z|n]; [discriminate|].
  pose proof (nres_tidy n Hl) as HT. injection H as H. rewrite H in HT. exact HT.
Qed.
Lemma tt_tidy st both lop rop (m right m' : trie K V) r : unpruned m -> unpruned right -> map_tt (R := R) rdef rd st both lop rop m right = Ret (m', r, Other) -> tidy m'.
Proof.
  intros HU HU'. unfold map_tt. destruct (m_tt _ _ _ _ _ _ _ _ _) as [t| |] eqn:Ht; cbn [bind]; [|discriminate..]. intros H.
  pose proof (m_tt_lean rdef rd st both lop rop m right 0 (unpruned_kids m HU) (unpruned_kids right HU') t Ht) as Hl. destruct t as [z|z|z|n]; try discriminate.
  pose proof (nres_tidy n Hl) as HT. injection H as H. rewrite H in HT. exact HT.
Qed.

Theorem transmute_fewest {L W} {KL : Key L} (op : transmute_op (K * V) S X R) (m : trie K V) (m' : trie S X) r (m2 : trie L W) :
  reachable m -> m_keeps (mcall op) (map_visit m) -> map_transmute rdef rd op m = Ret (m', r) -> reachable m2 ->
  (forall e, In e (map_visit m') -> exists e', In e' (map_visit m2) /\ cls (fst e') = cls (fst e)) ->
  nodes (shape_of m') <= nodes (shape_of m2) /\ forall e, In e (map_visit m') -> level m' (cls (fst e)) <= level m2 (cls (fst e)).
Proof.
  intros HR HK HT HR2 HS. refine (nodes_tidy m' m2 _ _ HR2 HS); [|exact (transmute_tidy op m m' r HT)].
  exact (unp_transmute K V KK S X KS R rdef rd op m m' r HR HK HT).
Qed.
Theorem mm_fewest {L W A B} {KL : Key L} {KA : Key A} both lop rop (m : trie K V) (right : trie L W) (m' : trie S X) r (m2 : trie A B) :
  reachable m -> reachable right -> b_keeps (mcall both) (map_visit m) (map_visit right) -> m_keeps (mcall lop) (map_visit m) ->
  m_keeps (mcall rop) (map_visit right) -> map_mm rdef rd both lop rop m right = Ret (m', r) -> reachable m2 ->
  (forall e, In e (map_visit m') -> exists e', In e' (map_visit m2) /\ cls (fst e') = cls (fst e)) ->
  nodes (shape_of m') <= nodes (shape_of m2) /\ forall e, In e (map_visit m') -> level m' (cls (fst e)) <= level m2 (cls (fst e)).
Proof.
  intros HR HRr HB HL HRt HT HR2 HS. refine (nodes_tidy m' m2 _ _ HR2 HS); [|exact (mm_tidy both lop rop m right m' r HT)].
  exact (unp_mm K V KK L W KL S X KS R rdef rd both lop rop m right m' r HR HRr HB HL HRt HT).
Qed.
Theorem transmute_never_more (op : transmute_op (K * V) S X R) (m : trie K V) (m' : trie S X) r :
  reachable m -> m_keeps (mcall op) (map_visit m) -> map_transmute rdef rd op m = Ret (m', r) ->
  nodes (shape_of m') <= nodes (shape_of m) /\ forall e, In e (map_visit m') -> level m' (cls (fst e)) <= level m (cls (fst e)).
Proof.
  intros HR HK HT. apply (transmute_fewest op m m' r m HR HK HT HR). intros e He.
  destruct (transmute_exact rdef rd op m HR HK) as (m2 & r2 & HT2 & _ & HV & _). rewrite HT in HT2. injection HT2 as <- _. rewrite HV in He.
  apply in_flat_map in He. destruct He as (a & Ha & He). exists a. split; [exact Ha|].
  destruct (mcall op a) as [k v z|z] eqn:Hop; cbn [m_entry] in He; [|contradiction]. destruct He as [<-|[]]. symmetry. exact (HK a k v z Ha Hop).
Qed.

(** The other calls, when they make a map at all. *)
Theorem transform_fewest {L W} {KL : Key L} st (op : transform_op (K * V) V R) (m m' : trie K V) r (m2 : trie L W) :
  unpruned m -> map_transform rdef rd st op m = Ret (m', r, Other) -> reachable m2 ->
  (forall e, In e (map_visit m') -> exists e', In e' (map_visit m2) /\ cls (fst e') = cls (fst e)) ->
  nodes (shape_of m') <= nodes (shape_of m2) /\ forall e, In e (map_visit m') -> level m' (cls (fst e)) <= level m2 (cls (fst e)).
Proof.
  intros HU HT HR2 HS. refine (nodes_tidy m' m2 _ _ HR2 HS); [|exact (transform_tidy st op m m' r HU HT)].
  exact (unp_transform K V KK R rdef rd st op m m' r Other HU HT).
Qed.
Theorem tm_fewest {L W A B} {KL : Key L} {KA : Key A} st both lop rop (m : trie K V) (right : trie L W) m' r (m2 : trie A B) :
  unpruned m -> reachable right -> m_keeps (mcall rop) (map_visit right) ->
  map_tm (R := R) rdef rd st both lop rop m right = Ret (m', r, Other) -> reachable m2 ->
  (forall e, In e (map_visit m') -> exists e', In e' (map_visit m2) /\ cls (fst e') = cls (fst e)) ->
  nodes (shape_of m') <= nodes (shape_of m2) /\ forall e, In e (map_visit m') -> level m' (cls (fst e)) <= level m2 (cls (fst e)).
Proof.
  intros HU HR HK HT HR2 HS. refine (nodes_tidy m' m2 _ _ HR2 HS); [|exact (tm_tidy st both lop rop m right m' r HU HT)].
  exact (unp_tm K V KK L W KL R rdef rd st both lop rop m right m' r Other HU HR HK HT).
Qed.
Theorem mt_fewest {L W A B} {KL : Key L} {KA : Key A} st both lop rop (m : trie K V) (right : trie L W) m' r (m2 : trie A B) :
  reachable m -> unpruned right -> m_keeps (mcall lop) (map_visit m) ->
  map_mt (R := R) rdef rd st both lop rop m right = Ret (m', r, Other) -> reachable m2 ->
  (forall e, In e (map_visit m') -> exists e', In e' (map_visit m2) /\ cls (fst e') = cls (fst e)) ->
  nodes (shape_of m') <= nodes (shape_of m2) /\ forall e, In e (map_visit m') -> level m' (cls (fst e)) <= level m2 (cls (fst e)).
Proof.
  intros HR HU HK HT HR2 HS. refine (nodes_tidy m' m2 _ _ HR2 HS); [|exact (mt_tidy st both lop rop m right m' r HU HT)].
  exact (unp_mt K V KK L W KL R rdef rd st both lop rop m right m' r Other HR HU HK HT).
Qed.
Theorem tt_fewest {A B} {KA : Key A} st both lop rop (m right m' : trie K V) r (m2 : trie A B) :
  unpruned m -> unpruned right -> tame both lop rop (map_visit m) (map_visit right) ->
  map_tt (R := R) rdef rd st both lop rop m right = Ret (m', r, Other) -> reachable m2 ->
  (forall e, In e (map_visit m') -> exists e', In e' (map_visit m2) /\ cls (fst e') = cls (fst e)) ->
  nodes (shape_of m') <= nodes (shape_of m2) /\ forall e, In e (map_visit m') -> level m' (cls (fst e)) <= level m2 (cls (fst e)).
Proof.
  intros HU HR HK HT HR2 HS. refine (nodes_tidy m' m2 _ _ HR2 HS); [|exact (tt_tidy st both lop rop m right m' r HU HR HT)].
  exact (unp_tt K V KK R rdef rd st both lop rop m right m' r Other HU HR HK HT).
Qed.

End Transmute.

(** Transmuting leaves nothing of the history. *)
Section Canonical.
Context {E : Env} {K V L W S X R : Type} {KK : Key K} {KL : Key L} {KS : Key S} (rdef : R) (rd : R -> R -> R).

Theorem transmute_canonical (op1 : transmute_op (K * V) S X R) (op2 : transmute_op (L * W) S X R) (m1 : trie K V) (m2 : trie L W) (m1' m2' : trie S X) r1 r2 :
  reachable m1 -> reachable m2 -> m_keeps (mcall op1) (map_visit m1) -> m_keeps (mcall op2) (map_visit m2) ->
  map_transmute rdef rd op1 m1 = Ret (m1', r1) -> map_transmute rdef rd op2 m2 = Ret (m2', r2) ->
  map_visit m1' = map_visit m2' -> m1' = m2'.
Proof.
  intros HR1 HR2 HK1 HK2 H1 H2 HV.
  pose proof (unp_transmute K V KK S X KS R rdef rd op1 m1 m1' r1 HR1 HK1 H1) as HU1.
  pose proof (unp_transmute L W KL S X KS R rdef rd op2 m2 m2' r2 HR2 HK2 H2) as HU2.
  apply visit_same; [exact HU1|exact HU2| |exact HV].
  apply tidy_root; [apply unpruned_reachable; exact HU1|apply unpruned_reachable; exact HU2|exact (transmute_tidy rdef rd op1 m1 m1' r1 H1)|exact (transmute_tidy rdef rd op2 m2 m2' r2 H2)|].
  rewrite HV. intros c. reflexivity.
Qed.

End Canonical.

Section Compact.
Context {E : Env} {K V R : Type} {KK : Key K} (rdef : R) (rd : R -> R -> R).

Theorem compact (f : K * V -> R) (m : trie K V) : reachable m -> exists m' r,
  map_transmute rdef rd (MGeneric (fun e => KTransmuted (fst e) (snd e) (f e))) m = Ret (m', r) /\ map_visit m' = map_visit m /\
  (forall m2 : trie K V, reachable m2 -> map_visit m2 = map_visit m -> nodes (shape_of m') <= nodes (shape_of m2)) /\
  forall (g : K * V -> R) (m2 m2' : trie K V) r2, reachable m2 -> map_visit m2 = map_visit m ->
    map_transmute rdef rd (MGeneric (fun e => KTransmuted (fst e) (snd e) (g e))) m2 = Ret (m2', r2) -> m2' = m'.
Proof.
  intros HR.
  assert (HK : forall (g : K * V -> R) l, m_keeps (mcall (MGeneric (fun e : K * V => KTransmuted (fst e) (snd e) (g e)))) l).
  { intros g l e k v r _ [= <- _ _]. reflexivity. }
  assert (HV : forall (g : K * V -> R) (a a' : trie K V) z, reachable a -> map_transmute rdef rd (MGeneric (fun e => KTransmuted (fst e) (snd e) (g e))) a = Ret (a', z) -> map_visit a' = map_visit a).
  { intros g a a' z HA Ha. destruct (transmute_exact rdef rd _ a HA (HK g _)) as (a2 & z2 & Ha2 & _ & Hv & _). rewrite Ha in Ha2. injection Ha2 as <- _. rewrite Hv.
    clear. induction (map_visit a) as [|[k v] l IH]; [reflexivity|]. cbn [flat_map mcall m_entry fst snd app] in *. rewrite IH. reflexivity. }
  destruct (transmute_exact rdef rd _ m HR (HK f _)) as (m' & r & Hm & _). exists m', r. split; [exact Hm|]. pose proof (HV f m m' r HR Hm) as Hv. split; [exact Hv|]. split.
  - intros m2 HR2 Hv2. apply (transmute_fewest rdef rd _ m m' r m2 HR (HK f _) Hm HR2). intros e He. exists e. split; [|reflexivity]. rewrite Hv2, <- Hv. exact He.
  - intros g m2 m2' r2 HR2 Hv2 Hm2. apply (transmute_canonical rdef rd _ _ m2 m m2' m' r2 r HR2 HR (HK g _) (HK f _) Hm2 Hm).
    rewrite (HV g m2 m2' r2 HR2 Hm2), Hv2, Hv. reflexivity.
Qed.

End Compact.
