(** The shape of a trie built without remove is a function of its keys. *)
From Coq Require Import NArith Arith List Bool Lia ZifyBool ZifyN ZifyNat Permutation.
From Verif Require Import Base Words WordsP Flag FlagP Bia BiaP Node Spec SpecP Inv NodeP TrieP Api ApiP Trans Transform Joint JointT Reach ReachP
  Profile Hist Lean LeanP Sides SidesP.
Import ListNotations.
Open Scope N_scope.

Section Bits.
Context {E : Env}.

Lemma pre_below a b h h' : pre (a + b) h = pre (a + b) h' -> pre a h = pre a h'.
Proof.
  intros H. assert (Ho : off (a + b) = off a + off b) by (unfold off; lia). unfold pre in *. rewrite Ho in H. rewrite N.pow_add_r in H.
  rewrite !N.mod_mul_r in H by apply pow2_ne0.
  apply (f_equal (fun x => x mod 2 ^ off a)) in H. rewrite !(N.mul_comm (2 ^ off a)), !N.mod_add, !N.mod_mod in H by apply pow2_ne0. exact H.
Qed.
Lemma idx_below d i h h' : pre (d + 1 + i) h = pre (d + 1 + i) h' -> idx d h = idx d h'.
Proof.
  intros H. apply pre_below in H. rewrite (pre_succ d h') in H. apply pre_idx in H; [|apply pre_lt]. apply H.
Qed.

End Bits.

Section One.
Context {E : Env} {K V : Type} {KK : Key K}.

(** The entries of a child are those of the node with its slice. *)
Lemma child_entries d p bits (values : list (mnode K V)) x i c : wf d p (MC (BIA bits values x)) -> getv bits values i = Some c ->
  forall e, In e (m_visit c) <-> In e (m_visit (MC (BIA bits values x))) /\ idx d (hash (ecls e)) = i.
Proof.
  intros HW Hg e. split.
  - intros He. split; [|eapply wf_C_idx; eassumption]. cbn [m_visit]. apply in_concat. exists (m_visit c). split; [apply in_map; eapply getv_in; eassumption|exact He].
  - intros [He Hi]. destruct (wf_C_inv _ _ _ _ _ HW) as [Hok _]. destruct (visit_C_in _ _ _ _ _ Hok He) as (j & c' & _ & Hg' & He').
    pose proof (wf_C_idx _ _ _ _ _ _ _ _ HW Hg' He') as Hj. rewrite Hi in Hj. rewrite <- Hj in Hg'. rewrite Hg in Hg'. injection Hg' as <-. exact He'.
Qed.
Lemma slot_full d p bits (values : list (mnode K V)) x i : wf d p (MC (BIA bits values x)) ->
  ((exists c, getv bits values i = Some c) <-> exists e, In e (m_visit (MC (BIA bits values x))) /\ idx d (hash (ecls e)) = i).
Proof.
  intros HW. destruct (wf_C_inv _ _ _ _ _ HW) as [Hok Hch]. split.
  - intros [c Hc]. pose proof (wf_nonempty _ _ _ (Hch i c Hc) ltac:(lia)) as Hn. destruct (m_visit c) as [|e l] eqn:Hv; [contradiction|].
    exists e. apply (child_entries _ _ _ _ _ _ _ HW Hc). rewrite Hv. left. reflexivity.
  - intros (e & He & Hi). destruct (visit_C_in _ _ _ _ _ Hok He) as (j & c & _ & Hg & Hc). exists c.
    rewrite (wf_C_idx _ _ _ _ _ _ _ _ HW Hg Hc) in Hi. subst j. exact Hg.
Qed.

(** A lean branch holds two different hashes. *)
Lemma lean_two (n : mnode K V) : forall d p, wf d p n -> lean n = true -> rooted n = true ->
  exists e e', In e (m_visit n) /\ In e' (m_visit n) /\ hash (ecls e) <> hash (ecls e').
Proof.
  induction n as [bits values x IH|l|s] using mnode_ind'; intros d p HW HL HR; [|discriminate..].
  cbn [lean] in HL. apply andb_true_iff in HL. destruct HL as [HF HL]. rewrite Forall_forall in IH.
  destruct (wf_C_inv _ _ _ _ _ HW) as [Hok Hch].
  assert (Hsub : forall c e, In c values -> In e (m_visit c) -> In e (m_visit (MC (BIA bits values x)))).
  { intros c e Hc He. cbn [m_visit]. apply in_concat. exists (m_visit c). split; [apply in_map; exact Hc|exact He]. }
  assert (Hone : forall c, In c values -> exists i e, getv bits values i = Some c /\ In e (m_visit c)).
  { intros c Hc. destruct (in_values_get _ _ _ c Hok Hc) as (i & _ & Hi). pose proof (wf_nonempty _ _ _ (Hch i c Hi) ltac:(lia)) as Hn.
    destruct (m_visit c) as [|e l]; [contradiction|]. exists i, e. split; [exact Hi|left; reflexivity]. }
  destruct values as [|c1 [|c2 vs]]; [discriminate| |].
  - destruct c1 as [b|l|s]; [|discriminate..]. destruct (in_values_get _ _ _ (MC b) Hok (or_introl eq_refl)) as (i & _ & Hi).
    cbn [forallb] in HL. apply andb_true_iff in HL.
    destruct (IH (MC b) (or_introl eq_refl) _ _ (Hch i _ Hi) (proj1 HL) eq_refl) as (e & e' & He & He' & Hh).
    exists e, e'. split; [apply (Hsub (MC b)); [left; reflexivity|exact He]|]. split; [apply (Hsub (MC b)); [left; reflexivity|exact He']|exact Hh].
  - destruct (Hone c1 (or_introl eq_refl)) as (i & e & Hi & He). destruct (Hone c2 (or_intror (or_introl eq_refl))) as (j & e' & Hj & He').
    exists e, e'. split; [apply (Hsub c1); [left; reflexivity|exact He]|]. split; [apply (Hsub c2); [right; left; reflexivity|exact He']|]. intros Hh.
    pose proof (wf_C_idx _ _ _ _ _ _ _ _ HW Hi He) as H1. pose proof (wf_C_idx _ _ _ _ _ _ _ _ HW Hj He') as H2. rewrite Hh in H1.
    assert (Hij : i = j) by congruence. rewrite <- Hij, Hi in Hj. injection Hj as <-.
    pose proof (wf_uniq _ _ _ HW) as HU. cbn [m_visit map concat] in HU. apply uniq_app_inv in HU. destruct HU as (_ & _ & HU).
    apply (HU e e He); [|reflexivity]. apply in_or_app. left. exact He.
Qed.

(** A leaf or list has one hash. *)
Lemma leaf_shape (n : mnode K V) d p : wf d p n -> rooted n = false ->
  m_visit n <> [] /\ exists h, (forall e, In e (m_visit n) -> hash (ecls e) = h) /\ shape_of n = Bucket h (lenN (m_visit n)).
Proof.
  intros HW HR. destruct HW as [d p s Hs|d p l h HL Hp|]; [| |discriminate].
  - split; [discriminate|]. exists (hashk (s_key s)). split; [intros e [<-|[]]; reflexivity|reflexivity].
  - split; [apply l_visit_ne|]. destruct HL as (HL & _ & Hh). exists h. split; [exact Hh|]. cbn [shape_of m_visit]. rewrite (l_size_len l HL).
    f_equal. apply (Hh (l_key l, l_value l)). destruct l; left; reflexivity.
Qed.

(** Two entries of equal hash lie in the same leaf or list. *)
Lemma same_leaf (n : mnode K V) : forall d p j x e e', wf d p n -> In (j, x) (leaves n) -> In e (next_visit x) -> In e' (m_visit n) ->
  hash (ecls e') = hash (ecls e) -> In e' (next_visit x).
Proof.
  induction n as [bits values x0 IH|l|s] using mnode_ind'; intros d p j x e e' HW Hx He He' Hh.
  2:{ destruct Hx as [[= <- <-]|[]]. exact He'. }
  2:{ destruct Hx as [[= <- <-]|[]]. exact He'. }
  destruct (leaves_inv _ _ _ _ _ Hx) as (c & d1 & Hc & Hl & _). rewrite Forall_forall in IH.
  destruct (wf_C_inv _ _ _ _ _ HW) as [Hok Hch]. destruct (in_values_get _ _ _ c Hok Hc) as (i & _ & Hi).
  apply (IH c Hc _ _ d1 x e e' (Hch i c Hi) Hl He); [|exact Hh]. apply (child_entries _ _ _ _ _ _ _ HW Hi). split; [exact He'|].
  rewrite Hh. apply (wf_C_idx _ _ _ _ _ _ _ _ HW Hi). apply (leaf_sub c d1 x e Hl He).
Qed.

(** The branches above an entry. *)
Definition meets (d i : N) (n : mnode K V) (e : K * V) : Prop :=
  exists e', In e' (m_visit n) /\ hash (ecls e') <> hash (ecls e) /\ pre (d + i) (hash (ecls e')) = pre (d + i) (hash (ecls e)).

Lemma level_C d p bits (values : list (mnode K V)) x0 j x e : wf d p (MC (BIA bits values x0)) ->
  (forall c i d1, getv bits values i = Some c -> In (d1, x) (leaves c) -> forall k, k < d1 <-> meets (d + 1) k c e) ->
  In (j, x) (leaves (MC (BIA bits values x0))) -> In e (next_visit x) ->
  0 < j /\ forall i, i + 1 < j <-> meets d (i + 1) (MC (BIA bits values x0)) e.
Proof.
  intros HW IH Hx He. destruct (leaves_inv _ _ _ _ _ Hx) as (c & d1 & Hc & Hl & ->). split; [lia|]. intros i.
  destruct (wf_C_inv _ _ _ _ _ HW) as [Hok Hch]. destruct (in_values_get _ _ _ c Hok Hc) as (s & _ & Hs).
  assert (Hiff : i + 1 < d1 + 1 <-> i < d1) by lia. rewrite Hiff, (IH c s d1 Hs Hl i). unfold meets.
  replace (d + (i + 1)) with (d + 1 + i) by lia. pose proof (leaf_sub c d1 x e Hl He) as Hec.
  pose proof (wf_C_idx _ _ _ _ _ _ _ _ HW Hs Hec) as Hie. split; intros (e' & H1 & H2 & H3); exists e'.
  - split; [|split; assumption]. apply (child_entries _ _ _ _ _ _ _ HW Hs). exact H1.
  - split; [|split; assumption]. apply (child_entries _ _ _ _ _ _ _ HW Hs). split; [exact H1|]. rewrite <- Hie. exact (idx_below _ _ _ _ H3).
Qed.

Lemma level_lean (n : mnode K V) : forall d p j x e, wf d p n -> lean n = true -> In (j, x) (leaves n) -> In e (next_visit x) ->
  forall i, i < j <-> meets d i n e.
Proof.
  induction n as [bits values x0 IH|l|s] using mnode_ind'; intros d p j x e HW HL Hx He i.
  - pose proof HW as HW0. rewrite Forall_forall in IH. destruct (wf_C_inv _ _ _ _ _ HW) as [Hok Hch].
    destruct (level_C d p bits values x0 j x e HW) as [Hj Hlev]; [|exact Hx|exact He|].
    { intros c s d1 Hs Hl k. apply (IH c (getv_in _ _ _ _ Hs) _ _ d1 x e (Hch s c Hs)); [|exact Hl|exact He].
      eapply child_lean; [apply lean_kids; exact HL|eapply getv_in; exact Hs]. }
    destruct (N.eq_dec i 0) as [->|Hi]; [|replace i with (i - 1 + 1) by lia; apply Hlev].
    split; [intros _|intros _; exact Hj]. destruct (lean_two _ d p HW HL eq_refl) as (a & b & Ha & Hb & Hab).
    pose proof (leaf_sub _ _ _ _ Hx He) as Hen. unfold meets. rewrite N.add_0_r.
    destruct (N.eq_dec (hash (ecls a)) (hash (ecls e))) as [Hae|Hae].
    + exists b. split; [exact Hb|]. split; [congruence|]. rewrite (wf_keys _ _ _ HW b Hb), (wf_keys _ _ _ HW e Hen). reflexivity.
    + exists a. split; [exact Ha|]. split; [exact Hae|]. rewrite (wf_keys _ _ _ HW a Ha), (wf_keys _ _ _ HW e Hen). reflexivity.
  - destruct Hx as [[= <- <-]|[]]. split; [lia|]. intros (e' & He' & Hne & _). exfalso. apply Hne.
    destruct (leaf_shape (ML l) d p HW eq_refl) as (_ & h & Hh & _). rewrite !Hh; [reflexivity|exact He|exact He'].
  - destruct Hx as [[= <- <-]|[]]. split; [lia|]. intros (e' & He' & Hne & _). exfalso. apply Hne.
    destruct (leaf_shape (MS s) d p HW eq_refl) as (_ & h & Hh & _). rewrite !Hh; [reflexivity|exact He|exact He'].
Qed.

Lemma level_root (n : mnode K V) j x e : wf 0 0 n -> kids n = true -> In (j, x) (leaves n) -> In e (next_visit x) ->
  forall i, i < j <-> (i = 0 /\ rooted n = true) \/ meets 0 i n e.
Proof.
  intros HW HK Hx He i. destruct n as [[bits values x0]|l|s].
  - destruct (wf_C_inv _ _ _ _ _ HW) as [Hok Hch].
    destruct (level_C 0 0 bits values x0 j x e HW) as [Hj Hlev]; [|exact Hx|exact He|].
    { intros c s d1 Hs Hl k. apply (level_lean c _ _ d1 x e (Hch s c Hs)); [|exact Hl|exact He].
      eapply child_lean; [exact HK|eapply getv_in; exact Hs]. }
    destruct (N.eq_dec i 0) as [->|Hi].
    + split; [intros _; left; split; reflexivity|intros _; exact Hj].
    + replace i with (i - 1 + 1) by lia. rewrite Hlev. split; [intros H; right; exact H|intros [[H _]|H]; [lia|exact H]].
  - rewrite (level_lean (ML l) 0 0 j x e HW eq_refl Hx He i). split; [intros H; right; exact H|intros [[_ H]|H]; [discriminate|exact H]].
  - rewrite (level_lean (MS s) 0 0 j x e HW eq_refl Hx He i). split; [intros H; right; exact H|intros [[_ H]|H]; [discriminate|exact H]].
Qed.

Lemma entry_leaf (m : mnode K V) e : In e (m_visit m) -> exists j x, In (j, x) (leaves m) /\ In e (next_visit x).
Proof.
  intros He. rewrite <- leaves_visit in He. apply in_concat in He. destruct He as (l & Hl & He).
  apply in_map_iff in Hl. destruct Hl as ((j & x) & <- & Hx). exists j, x. split; assumption.
Qed.

Lemma is_list_hash (m : trie K V) j x e : wf 0 0 m -> In (j, x) (leaves m) -> In e (next_visit x) ->
  (is_list x = true <-> exists e', In e' (m_visit m) /\ ecls e' <> ecls e /\ hash (ecls e') = hash (ecls e)).
Proof.
  intros HW Hx He. split.
  - destruct x as [l|s]; [intros _|discriminate]. destruct (leaf_lwf m 0 0 j l HW Hx) as (h & _ & HU & Hh).
    destruct (l_visit l) as [|a [|b t]] eqn:Hl; [destruct l; discriminate|destruct l as [? ? n ?|]; [destruct n|]; discriminate|].
    assert (Hab : ecls b <> ecls a).
    { unfold uniq in HU. cbn [map] in HU. inversion HU as [|? ? Hn _]; subst. intros Hab. apply Hn. left. exact Hab. }
    cbn [next_visit] in He. rewrite Hl in He.
    assert (Hin : forall e0, In e0 (a :: b :: t) -> In e0 (m_visit m)).
    { intros e0 H0. apply (leaf_sub m j (NL l) e0 Hx). cbn [next_visit]. rewrite Hl. exact H0. }
    assert (Hc : {ecls a = ecls e} + {ecls a <> ecls e}) by (destruct (ceqb_spec (ecls a) (ecls e)); [left|right]; assumption).
    destruct Hc as [Hae|Hae].
    + exists b. split; [apply Hin; right; left; reflexivity|]. split; [congruence|]. rewrite !Hh; [reflexivity|exact He|right; left; reflexivity].
    + exists a. split; [apply Hin; left; reflexivity|]. split; [exact Hae|]. rewrite !Hh; [reflexivity|exact He|left; reflexivity].
  - intros (e' & He' & Hne & Hh). destruct x as [l|s]; [reflexivity|]. exfalso. apply Hne.
    pose proof (same_leaf m 0 0 j (NS s) e e' HW Hx He He' Hh) as H. destruct H as [<-|[]]. destruct He as [<-|[]]. reflexivity.
Qed.

End One.

(** * Two tries with the same keys *)
Section Two.
Context {E : Env} {K V L W : Type} {KK : Key K} {KL : Key L}.

Definition same_keys (n : list (K * V)) (n' : list (L * W)) : Prop :=
  forall c, (exists e, In e n /\ cls (fst e) = c) <-> (exists e, In e n' /\ cls (fst e) = c).

Lemma same_len (l : list (K * V)) (l' : list (L * W)) : uniq l -> uniq l' -> same_keys l l' -> lenN l = lenN l'.
Proof.
  intros HU HU' HS. unfold lenN. f_equal. rewrite <- (map_length ecls l), <- (map_length ecls l').
  apply Permutation_length. apply NoDup_Permutation; [exact HU|exact HU'|]. intros c. rewrite !in_map_iff. specialize (HS c).
  split; intros (e & H1 & H2); [destruct (proj1 HS) as (e' & H3 & H4)|destruct (proj2 HS) as (e' & H3 & H4)]; eauto.
Qed.

Lemma shape_C d p bits (values : list (mnode K V)) x bits' (values' : list (mnode L W)) x' :
  wf d p (MC (BIA bits values x)) -> wf d p (MC (BIA bits' values' x')) ->
  (forall i c c', getv bits values i = Some c -> getv bits' values' i = Some c' -> same_keys (m_visit c) (m_visit c') -> shape_of c = shape_of c') ->
  same_keys (m_visit (MC (BIA bits values x))) (m_visit (MC (BIA bits' values' x'))) ->
  shape_of (MC (BIA bits values x)) = shape_of (MC (BIA bits' values' x')).
Proof.
  intros HW HW' Hrec HS. destruct (wf_C_inv _ _ _ _ _ HW) as [Hok _]. destruct (wf_C_inv _ _ _ _ _ HW') as [Hok' _].
  assert (Hslot : forall i, (exists c, getv bits values i = Some c) <-> (exists c, getv bits' values' i = Some c)).
  { intros i. rewrite (slot_full d p bits values x i HW), (slot_full d p bits' values' x' i HW'). split; intros (e & He & Hi).
    - destruct (proj1 (HS (ecls e)) (ex_intro _ e (conj He eq_refl))) as (e' & He' & Hc). exists e'. split; [exact He'|]. unfold ecls at 1. rewrite Hc. exact Hi.
    - destruct (proj2 (HS (ecls e)) (ex_intro _ e (conj He eq_refl))) as (e' & He' & Hc). exists e'. split; [exact He'|]. unfold ecls at 1. rewrite Hc. exact Hi. }
  assert (Hsome : forall i, option_map shape_of (getv bits values i) = option_map shape_of (getv bits' values' i)).
  { intros i. specialize (Hslot i). destruct (getv bits values i) as [c|] eqn:Hg; destruct (getv bits' values' i) as [c'|] eqn:Hg'; [|exfalso..|reflexivity].
    - cbn [option_map]. f_equal. apply (Hrec i c c' Hg Hg'). intros k. split; intros (e & He & Hc).
      + apply (child_entries _ _ _ _ _ _ _ HW Hg) in He. destruct He as [He Hi].
        destruct (proj1 (HS k) (ex_intro _ e (conj He Hc))) as (e' & He' & Hc'). exists e'. split; [|exact Hc'].
        apply (child_entries _ _ _ _ _ _ _ HW' Hg'). split; [exact He'|]. unfold ecls. rewrite Hc', <- Hc. exact Hi.
      + apply (child_entries _ _ _ _ _ _ _ HW' Hg') in He. destruct He as [He Hi].
        destruct (proj2 (HS k) (ex_intro _ e (conj He Hc))) as (e' & He' & Hc'). exists e'. split; [|exact Hc'].
        apply (child_entries _ _ _ _ _ _ _ HW Hg). split; [exact He'|]. unfold ecls. rewrite Hc', <- Hc. exact Hi.
    - destruct (proj1 Hslot) as [c0 H0]; [eauto|discriminate].
    - destruct (proj2 Hslot) as [c0 H0]; [eauto|discriminate]. }
  cbn [shape_of]. f_equal.
  - apply N.bits_inj. intros i. specialize (Hsome i). destruct (getv bits values i) as [c|] eqn:Hg; destruct (getv bits' values' i) as [c'|] eqn:Hg'; try discriminate.
    + rewrite (getv_testbit _ _ _ _ Hg), (getv_testbit _ _ _ _ Hg'). reflexivity.
    + rewrite (okv_none _ _ _ _ Hok Hg), (okv_none _ _ _ _ Hok' Hg'). reflexivity.
  - rewrite (values_slots _ _ _ Hok), (values_slots _ _ _ Hok'), !map_slots. unfold slots. apply flat_map_ext_in. intros i _. rewrite Hsome. reflexivity.
Qed.

Lemma one_hash_two (n : mnode K V) (n' : mnode L W) d p d' p' : wf d p n -> lean n = true -> rooted n = true -> wf d' p' n' -> rooted n' = false ->
  same_keys (m_visit n) (m_visit n') -> False.
Proof.
  intros HW HL HR HW' HR' HS. destruct (lean_two n d p HW HL HR) as (a & b & Ha & Hb & Hab).
  destruct (leaf_shape n' d' p' HW' HR') as (_ & h & Hh & _). apply Hab.
  destruct (proj1 (HS (ecls a)) (ex_intro _ a (conj Ha eq_refl))) as (a' & Ha' & Ca).
  destruct (proj1 (HS (ecls b)) (ex_intro _ b (conj Hb eq_refl))) as (b' & Hb' & Cb).
  rewrite <- Ca, <- Cb. change (hash (ecls a') = hash (ecls b')). rewrite !Hh by assumption. reflexivity.
Qed.
Lemma leaves_same (n : mnode K V) (n' : mnode L W) d p : wf d p n -> rooted n = false -> wf d p n' -> rooted n' = false ->
  same_keys (m_visit n) (m_visit n') -> shape_of n = shape_of n'.
Proof.
  intros HW HR HW' HR' HS. destruct (leaf_shape n d p HW HR) as (Hne & h & Hh & ->). destruct (leaf_shape n' d p HW' HR') as (_ & h' & Hh' & ->).
  rewrite (same_len _ _ (wf_uniq _ _ _ HW) (wf_uniq _ _ _ HW') HS). f_equal. destruct (m_visit n) as [|a l]; [contradiction|].
  destruct (proj1 (HS (ecls a)) (ex_intro _ a (conj (or_introl eq_refl) eq_refl))) as (a' & Ha' & Ca).
  rewrite <- (Hh a (or_introl eq_refl)), <- (Hh' a' Ha'). unfold ecls at 2. rewrite Ca. reflexivity.
Qed.

End Two.

Section Same.
Context {E : Env} {K V L W : Type} {KK : Key K} {KL : Key L}.

Lemma shape_lean (n : mnode K V) : forall (n' : mnode L W) d p, wf d p n -> wf d p n' -> lean n = true -> lean n' = true ->
  same_keys (m_visit n) (m_visit n') -> shape_of n = shape_of n'.
Proof.
  assert (Hflip : forall (a : mnode K V) (b : mnode L W), same_keys (m_visit a) (m_visit b) -> same_keys (m_visit b) (m_visit a)) by (intros a b H c; symmetry; apply H).
  induction n as [bits values x IH|l|s] using mnode_ind'; intros n' d p HW HW' HL HL' HS.
  - destruct n' as [[bits' values' x']|l|s]; [|exfalso; eapply (one_hash_two (MC (BIA bits values x))); eauto; fail..].
    rewrite Forall_forall in IH. destruct (wf_C_inv _ _ _ _ _ HW) as [_ Hch]. destruct (wf_C_inv _ _ _ _ _ HW') as [_ Hch'].
    eapply shape_C; [exact HW|exact HW'| |exact HS]. intros i c c' Hg Hg' Hk. apply (IH c (getv_in _ _ _ _ Hg) c' _ _ (Hch i c Hg) (Hch' i c' Hg')); [| |exact Hk].
    + eapply child_lean; [apply lean_kids; exact HL|eapply getv_in; exact Hg].
    + eapply child_lean; [apply lean_kids; exact HL'|eapply getv_in; exact Hg'].
  - destruct n' as [b|l'|s']; [exfalso; exact (one_hash_two (MC b) _ d p d p HW' HL' eq_refl HW eq_refl (Hflip _ _ HS))|exact (leaves_same _ _ d p HW eq_refl HW' eq_refl HS)..].
  - destruct n' as [b|l'|s']; [exfalso; exact (one_hash_two (MC b) _ d p d p HW' HL' eq_refl HW eq_refl (Hflip _ _ HS))|exact (leaves_same _ _ d p HW eq_refl HW' eq_refl HS)..].
Qed.

Theorem same_shape (m : trie K V) (m' : trie L W) : unpruned m -> unpruned m' -> rooted m = rooted m' ->
  same_keys (map_visit m) (map_visit m') -> shape_of m = shape_of m'.
Proof.
  intros HU HU' HR HS. pose proof (unpruned_kids m HU) as HK. pose proof (unpruned_kids m' HU') as HK'.
  pose proof (reachable_mwf _ (unpruned_reachable _ HU)) as HW. pose proof (reachable_mwf _ (unpruned_reachable _ HU')) as HW'.
  destruct m as [[bits values x]|l|s]; destruct m' as [[bits' values' x']|l'|s']; try discriminate; try (exact (leaves_same _ _ 0 0 HW eq_refl HW' eq_refl HS)).
  destruct (wf_C_inv _ _ _ _ _ HW) as [_ Hch]. destruct (wf_C_inv _ _ _ _ _ HW') as [_ Hch'].
  eapply shape_C; [exact HW|exact HW'| |exact HS]. intros i c c' Hg Hg' Hk. apply (shape_lean c c' _ _ (Hch i c Hg) (Hch' i c' Hg')); [| |exact Hk].
  - eapply child_lean; [exact HK|eapply getv_in; exact Hg].
  - eapply child_lean; [exact HK'|eapply getv_in; exact Hg'].
Qed.

(** Two hashes make the root a branch. *)
Theorem two_rooted (m : trie K V) e e' : reachable m -> In e (map_visit m) -> In e' (map_visit m) -> hash (cls (fst e)) <> hash (cls (fst e')) -> rooted m = true.
Proof.
  intros HR He He' Hh. destruct (rooted m) eqn:Hr; [reflexivity|]. exfalso. apply Hh.
  destruct (leaf_shape m 0 0 (reachable_mwf _ HR) Hr) as (_ & h & H & _). transitivity h; [exact (H e He)|symmetry; exact (H e' He')].
Qed.

(** * Where a key lies *)
Theorem place_keys (m : trie K V) e : unpruned m -> In e (map_visit m) -> exists b,
  place m (cls (fst e)) = Some (level m (cls (fst e)), b) /\
  (b = true <-> exists e', In e' (map_visit m) /\ cls (fst e') <> cls (fst e) /\ hash (cls (fst e')) = hash (cls (fst e))) /\
  forall i, i < level m (cls (fst e)) <-> (i = 0 /\ rooted m = true) \/
    exists e', In e' (map_visit m) /\ hash (cls (fst e')) <> hash (cls (fst e)) /\
      hash (cls (fst e')) mod 2 ^ (i * log_b fw) = hash (cls (fst e)) mod 2 ^ (i * log_b fw).
Proof.
  intros HU He. pose proof (reachable_mwf _ (unpruned_reachable _ HU)) as HW. destruct (entry_leaf m e He) as (j & x & Hx & Hex).
  pose proof (place_leaf m j x e (mwf_uniq _ HW) Hx Hex) as HP. exists (is_list x).
  assert (HL : level m (cls (fst e)) = j) by (unfold level; rewrite HP; reflexivity). rewrite HL.
  split; [exact HP|]. split; [exact (is_list_hash m j x e HW Hx Hex)|].
  intros i. exact (level_root m j x e HW (unpruned_kids m HU) Hx Hex i).
Qed.

End Same.

Section Place.
Context {E : Env} {K V : Type} {KK : Key K}.

Lemma place_none (m : trie K V) c : (forall e, In e (map_visit m) -> cls (fst e) <> c) -> place m c = None.
Proof.
  intros H. unfold place. destruct (find _ _) as [[d x]|] eqn:Hf; [|reflexivity]. exfalso. apply find_some in Hf. destruct Hf as [Hx Hf].
  apply existsb_exists in Hf. destruct Hf as (e & He & Hc). destruct (ceqb_spec (cls (fst e)) c) as [Hc'|]; [|discriminate].
  apply (H e); [|exact Hc']. exact (leaf_sub m d x e Hx He).
Qed.

End Place.

Section Places.
Context {E : Env} {K V L W : Type} {KK : Key K} {KL : Key L}.

Theorem same_place (m : trie K V) (m' : trie L W) : unpruned m -> unpruned m' -> rooted m = rooted m' ->
  same_keys (map_visit m) (map_visit m') -> forall c, place m c = place m' c.
Proof.
  intros HU HU' HR HS c. destruct (place m c) as [[j b]|] eqn:Hp.
  - assert (He : exists e, In e (map_visit m) /\ cls (fst e) = c).
    { unfold place in Hp. destruct (find _ _) as [[d x]|] eqn:Hf; [|discriminate]. apply find_some in Hf. destruct Hf as [Hx Hf].
      apply existsb_exists in Hf. destruct Hf as (e & He & Hc). destruct (ceqb_spec (cls (fst e)) c) as [Hc'|]; [|discriminate].
      exists e. split; [exact (leaf_sub m d x e Hx He)|exact Hc']. }
    destruct (proj1 (HS c) He) as (e' & He' & Hc'). destruct He as (e & He & Hc).
    destruct (place_keys m e HU He) as (b1 & HP & Hb & Hl). destruct (place_keys m' e' HU' He') as (b2 & HP' & Hb' & Hl').
    rewrite Hc in *. rewrite Hc' in *. rewrite HP', <- Hp, HP.
    assert (Hlev : level m c = level m' c).
    { enough (Hi : forall i, i < level m c <-> i < level m' c) by (destruct (N.lt_trichotomy (level m c) (level m' c)) as [H|[H|H]]; [apply Hi in H; lia|exact H|apply Hi in H; lia]).
      intros i. rewrite Hl, Hl', HR. split; (intros [H|(a & Ha & H1 & H2)]; [left; exact H|right]).
      - destruct (proj1 (HS (cls (fst a))) (ex_intro _ a (conj Ha eq_refl))) as (a' & Ha' & Ca). exists a'. rewrite Ca. auto.
      - destruct (proj2 (HS (cls (fst a))) (ex_intro _ a (conj Ha eq_refl))) as (a' & Ha' & Ca). exists a'. rewrite Ca. auto. }
    assert (Hbb : b1 = true <-> b2 = true).
    { rewrite Hb, Hb'. split; intros (a & Ha & H1 & H2).
      - destruct (proj1 (HS (cls (fst a))) (ex_intro _ a (conj Ha eq_refl))) as (a' & Ha' & Ca). exists a'. rewrite Ca. auto.
      - destruct (proj2 (HS (cls (fst a))) (ex_intro _ a (conj Ha eq_refl))) as (a' & Ha' & Ca). exists a'. rewrite Ca. auto. }
    rewrite Hlev. do 2 f_equal. destruct b1, b2; try reflexivity; [symmetry; apply Hbb; reflexivity|apply Hbb; reflexivity].
  - symmetry. apply place_none. intros e' He' Hc'. destruct (proj2 (HS c) (ex_intro _ e' (conj He' Hc'))) as (e & He & Hc).
    destruct (place_keys m e HU He) as (b & HP & _). rewrite Hc in HP. congruence.
Qed.

End Places.

Section Constants.
Context {E : Env} {K V R : Type} {KK : Key K}.
Context (rdef : R) (rd : R -> R -> R) (st : strategy).

Lemma found_keys (m m' : trie K V) : reachable m -> reachable m' -> (forall k : K, map_find m k = map_find m' k) -> same_keys (map_visit m) (map_visit m').
Proof.
  assert (H1 : forall m m' : trie K V, reachable m -> reachable m' -> (forall k : K, map_find m k = map_find m' k) -> forall c, (exists e, In e (map_visit m) /\ cls (fst e) = c) -> (exists e, In e (map_visit m') /\ cls (fst e) = c)).
  { intros a b HA HB H c (e & He & Hc). specialize (H (fst e)). rewrite (map_find_ok a (fst e) (reachable_mwf _ HA)) in H.
    change (cls (fst e)) with (ecls e) in H. rewrite (in_lookup _ _ (mwf_uniq _ (reachable_mwf _ HA)) He) in H. cbn [find_res] in H.
    symmetry in H. apply (found_in b) in H; [|exact HB]. destruct H as [Hb _]. exists e. split; [exact Hb|exact Hc]. }
  intros HA HB H c. split; apply H1; auto.
Qed.

(** The constants do not see how a map without removals was built. *)
Theorem constants_unpruned r lop rop (m1 m2 right : trie K V) : unpruned m1 -> unpruned m2 -> reachable right ->
  rooted m1 = rooted m2 -> free m1 -> free right -> (forall k : K, map_find m1 k = map_find m2 k) ->
  exists m1' m2' r1 r2 o1 o2, map_tt rdef rd st (JUnchangedL r) lop rop m1 right = Ret (m1', r1, o1) /\
    map_tt rdef rd st (JUnchangedL r) lop rop m2 right = Ret (m2', r2, o2) /\
    forall (k : K) e e', map_find m1 k = Ret (Ok e) -> map_find right k = Ret (Ok e') -> map_find m1' k = map_find m2' k.
Proof.
  intros HU1 HU2 HRr Hroot HF1 HFr Hfind. pose proof (unpruned_reachable _ HU1) as HR1. pose proof (unpruned_reachable _ HU2) as HR2.
  pose proof (found_keys m1 m2 HR1 HR2 Hfind) as HS.
  assert (HF2 : free m2).
  { intros a b Ha Hb Hh. destruct (proj2 (HS _) (ex_intro _ a (conj Ha eq_refl))) as (a' & Ha' & Ca). destruct (proj2 (HS _) (ex_intro _ b (conj Hb eq_refl))) as (b' & Hb' & Cb).
    rewrite <- Ca, <- Cb in *. apply HF1; assumption. }
  destruct (constant_left_free rdef rd st r lop rop m1 right HR1 HRr HF1 HFr) as (m1' & r1 & o1 & H1 & F1).
  destruct (constant_left_free rdef rd st r lop rop m2 right HR2 HRr HF2 HFr) as (m2' & r2 & o2 & H2 & F2).
  exists m1', m2', r1, r2, o1, o2. split; [exact H1|]. split; [exact H2|]. intros k e e' He He'.
  rewrite (F1 K KK k e e' He He'). rewrite Hfind in He. rewrite (F2 K KK k e e' He He').
  assert (Hl : level m1 (cls k) = level m2 (cls k)) by (unfold level; rewrite (same_place m1 m2 HU1 HU2 Hroot HS (cls k)); reflexivity).
  assert (Hb : branches m1 right = branches m2 right) by (destruct m1; destruct m2; try discriminate; reflexivity).
  rewrite Hl, Hb. reflexivity.
Qed.

Theorem constants_unpruned_right r lop rop (m1 m2 right : trie K V) : unpruned m1 -> unpruned m2 -> reachable right ->
  rooted m1 = rooted m2 -> free m1 -> free right -> (forall k : K, map_find m1 k = map_find m2 k) ->
  exists m1' m2' r1 r2 o1 o2, map_tt rdef rd st (JUnchangedR r) lop rop m1 right = Ret (m1', r1, o1) /\
    map_tt rdef rd st (JUnchangedR r) lop rop m2 right = Ret (m2', r2, o2) /\
    forall (k : K) e e', map_find m1 k = Ret (Ok e) -> map_find right k = Ret (Ok e') -> map_find m1' k = map_find m2' k.
Proof.
  intros HU1 HU2 HRr Hroot HF1 HFr Hfind. pose proof (unpruned_reachable _ HU1) as HR1. pose proof (unpruned_reachable _ HU2) as HR2.
  pose proof (found_keys m1 m2 HR1 HR2 Hfind) as HS.
  assert (HF2 : free m2).
  { intros a b Ha Hb Hh. destruct (proj2 (HS _) (ex_intro _ a (conj Ha eq_refl))) as (a' & Ha' & Ca). destruct (proj2 (HS _) (ex_intro _ b (conj Hb eq_refl))) as (b' & Hb' & Cb).
    rewrite <- Ca, <- Cb in *. apply HF1; assumption. }
  destruct (constant_right_free rdef rd st r lop rop m1 right HR1 HRr HF1 HFr) as (m1' & r1 & o1 & H1 & F1).
  destruct (constant_right_free rdef rd st r lop rop m2 right HR2 HRr HF2 HFr) as (m2' & r2 & o2 & H2 & F2).
  exists m1', m2', r1, r2, o1, o2. split; [exact H1|]. split; [exact H2|]. intros k e e' He He'.
  rewrite (F1 K KK k e e' He He'). rewrite Hfind in He. rewrite (F2 K KK k e e' He He').
  assert (Hl : level m1 (cls k) = level m2 (cls k)) by (unfold level; rewrite (same_place m1 m2 HU1 HU2 Hroot HS (cls k)); reflexivity).
  assert (Hb : branches m1 right = branches m2 right) by (destruct m1; destruct m2; try discriminate; reflexivity).
  rewrite Hl, Hb. reflexivity.
Qed.

Lemma run_grown (os : list (op K V)) : forall (m m' : trie K V) xs, (forall o, In o os -> match o with ORemove _ => False | _ => True end) ->
  grown m -> run m os = Ret (m', xs) -> grown m'.
Proof.
  induction os as [|o os IH]; intros m m' xs HO HG; cbn [run]; [intros [= <- _]; exact HG|].
  assert (Hs : forall m1 x, step m o = Ret (m1, x) -> grown m1).
  { intros m1 x. pose proof (HO o (or_introl eq_refl)) as Ho. destruct o as [k v b|k|k]; [| contradiction|]; cbn [step].
    - destruct (map_insert (fun y => y) m k v b) as [[[[m2 e] prev]|e]| |] eqn:Hi; cbn [bind]; try discriminate; intros [= <- _]; [|exact HG].
      eapply (grown_insert K _ (fun y => y)); [exact HG|reflexivity|exact Hi].
    - destruct (map_find m k) as [[e|e]| |]; cbn [bind]; try discriminate; intros [= <- _]; exact HG. }
  destruct (step m o) as [[m1 x]| |]; cbn [bind]; try discriminate. destruct (run m1 os) as [[m2 ys]| |] eqn:Hr; cbn [bind]; try discriminate.
  intros [= <- _]. apply (IH m1 m2 ys); [intros o' Ho'; apply HO; right; exact Ho'|exact (Hs m1 x eq_refl)|exact Hr].
Qed.

End Constants.
