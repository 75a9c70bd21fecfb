(** The order of visit. *)
From Coq Require Import NArith Arith List Bool Lia ZifyBool ZifyN ZifyNat Permutation Sorted.
From Verif Require Import Base Words WordsP Flag FlagP Bia BiaP Node Spec SpecP Inv NodeP InsertP TrieP Api ApiP Trans Transform Joint JointT Reach ReachP
  Profile SpecOrder Lean LeanP Sides SidesP ShapeP.
Import ListNotations.
Open Scope N_scope.

(** * Lists *)
Section Sorted.
Context {A : Type}.

Lemma ss_app (R : A -> A -> Prop) l l' : StronglySorted R l -> StronglySorted R l' -> (forall x y, In x l -> In y l' -> R x y) -> StronglySorted R (l ++ l').
Proof.
  induction l as [|a l IH]; intros H H' HR; cbn [app]; [exact H'|]. inversion H as [|? ? Hl Ha]; subst. constructor.
  - apply IH; [exact Hl|exact H'|]. intros x y Hx Hy. apply HR; [right; exact Hx|exact Hy].
  - apply Forall_app. split; [exact Ha|]. apply Forall_forall. intros y Hy. apply HR; [left; reflexivity|exact Hy].
Qed.
Lemma ss_flat (R : A -> A -> Prop) (f : N -> list A) n : (forall i, StronglySorted R (f i)) ->
  (forall i j x y, i < j -> In x (f i) -> In y (f j) -> R x y) -> StronglySorted R (flat_map f (range 0 n)).
Proof.
  intros Hf HR. induction n as [|n IH] using N.peano_ind; [rewrite range_nil; constructor|]. rewrite range_snoc by lia. rewrite flat_map_app.
  apply ss_app; [exact IH|cbn [flat_map]; rewrite app_nil_r; apply Hf|]. intros x y Hx Hy. cbn [flat_map] in Hy. rewrite app_nil_r in Hy.
  apply in_flat_map in Hx. destruct Hx as (i & Hi & Hx). apply range_in in Hi. apply (HR i n); [lia|exact Hx|exact Hy].
Qed.
Lemma ss_map {B} (R : B -> B -> Prop) (f : A -> B) l : StronglySorted (fun x y => R (f x) (f y)) l -> StronglySorted R (map f l).
Proof.
  induction 1 as [|a l _ IH Ha]; cbn [map]; constructor; [exact IH|]. apply Forall_forall. intros y Hy. apply in_map_iff in Hy. destruct Hy as (x & <- & Hx).
  rewrite Forall_forall in Ha. apply Ha. exact Hx.
Qed.
Lemma ss_perm (R : A -> A -> Prop) : (forall x y, R x y -> R y x -> x = y) -> forall l l', StronglySorted R l -> StronglySorted R l' -> Permutation l l' -> l = l'.
Proof.
  intros Hanti. induction l as [|a l IH]; intros l' H H' HP; [apply Permutation_nil in HP; congruence|].
  destruct l' as [|b l']; [apply Permutation_sym, Permutation_nil in HP; discriminate|].
  inversion H as [|? ? Hl Ha]; subst. inversion H' as [|? ? Hl' Hb]; subst. rewrite Forall_forall in Ha, Hb.
  assert (Hab : a = b).
  { destruct (Permutation_in a HP (or_introl eq_refl)) as [Hx|Hx]; [congruence|].
    destruct (Permutation_in b (Permutation_sym HP) (or_introl eq_refl)) as [Hy|Hy]; [congruence|]. apply Hanti; [apply Ha; exact Hy|apply Hb; exact Hx]. }
  subst b. f_equal. apply IH; [exact Hl|exact Hl'|]. apply Permutation_cons_inv in HP. exact HP.
Qed.
Lemma map_inj {B} (f : A -> B) (F : list A) : (forall x y, In x F -> In y F -> f x = f y -> x = y) ->
  forall l l', incl l F -> incl l' F -> map f l = map f l' -> l = l'.
Proof.
  intros Hf. induction l as [|a l IH]; intros [|b l'] Hl Hl' H; try discriminate; [reflexivity|]. cbn [map] in H. injection H as Hab H. f_equal.
  - apply Hf; [apply Hl; left; reflexivity|apply Hl'; left; reflexivity|exact Hab].
  - apply IH; [intros x Hx; apply Hl; right; exact Hx|intros x Hx; apply Hl'; right; exact Hx|exact H].
Qed.
Lemma ss_between (R : A -> A -> Prop) l1 x l2 y l3 z : StronglySorted R (l1 ++ x :: l2 ++ y :: l3) -> In z l2 -> R x z /\ R z y /\ R x y.
Proof.
  intros H Hz. assert (Hs : StronglySorted R (x :: l2 ++ y :: l3)).
  { clear Hz. induction l1 as [|a l1 IH]; [exact H|]. apply IH. inversion H. assumption. }
  inversion Hs as [|? ? Hl Hx]; subst. rewrite Forall_forall in Hx. split; [apply Hx; apply in_or_app; left; exact Hz|]. split; [|apply Hx; apply in_or_app; right; left; reflexivity].
  clear H Hs Hx. induction l2 as [|a l2 IH]; [destruct Hz|]. cbn [app] in Hl. inversion Hl as [|? ? Hl2 Ha]; subst. destruct Hz as [->|Hz]; [|apply IH; assumption].
  rewrite Forall_forall in Ha. apply Ha. apply in_or_app. right. left. reflexivity.
Qed.

End Sorted.

(** * The order *)
Section Order.
Context {E : Env}.

Lemma digit_idx h i : digit (log_b fw) h i = idx i h.
Proof. reflexivity. Qed.
Lemma pre_digit d h h' : pre d h = pre d h' -> forall j, j < d -> idx j h = idx j h'.
Proof. intros H j Hj. apply (idx_below j (d - j - 1)). replace (j + 1 + (d - j - 1)) with d by lia. exact H. Qed.
Lemma earlier_irrefl b h : ~ earlier b h h.
Proof. intros (i & _ & H). lia. Qed.
Lemma earlier_trans b h1 h2 h3 : earlier b h1 h2 -> earlier b h2 h3 -> earlier b h1 h3.
Proof.
  intros (i & Hi & Hl) (j & Hj & Hl'). destruct (N.lt_trichotomy i j) as [H|[->|H]].
  - exists i. split; [intros k Hk; rewrite Hi by exact Hk; apply Hj; lia|]. rewrite <- (Hj i H). exact Hl.
  - exists j. split; [intros k Hk; rewrite Hi by exact Hk; apply Hj; exact Hk|lia].
  - exists j. split; [intros k Hk; rewrite Hi by lia; apply Hj; exact Hk|]. rewrite (Hi j H). exact Hl'.
Qed.
Definition hle (h h' : N) : Prop := h = h' \/ earlier (log_b fw) h h'.
Lemma hle_anti h h' : hle h h' -> hle h' h -> h = h'.
Proof. intros [H|H] [H'|H']; try congruence. destruct (earlier_irrefl _ _ (earlier_trans _ _ _ _ H H')). Qed.

Lemma pre_split d h h' : pre d h = pre d h' \/ exists i, pre i h = pre i h' /\ idx i h <> idx i h'.
Proof.
  induction d as [|d IH] using N.peano_ind; [left; rewrite !pre_0; reflexivity|]. destruct IH as [IH|IH]; [|right; exact IH].
  destruct (N.eq_dec (idx d h) (idx d h')) as [Hi|Hi]; [|right; exists d; split; assumption].
  left. replace (N.succ d) with (d + 1) by lia. rewrite !pre_succ, IH, Hi. reflexivity.
Qed.
Theorem earlier_total c c' : hash c <> hash c' -> earlier (log_b fw) (hash c) (hash c') \/ earlier (log_b fw) (hash c') (hash c).
Proof.
  intros Hne. destruct (pre_split hbits (hash c) (hash c')) as [Hp|(i & Hp & Hi)].
  - exfalso. pose proof (neq_off hbits _ _ Hne (hash_lt c) (hash_lt c') Hp) as H. unfold off in H. pose proof (log_b_pos fw). nia.
  - assert (Hlt : idx i (hash c) < idx i (hash c') \/ idx i (hash c') < idx i (hash c)) by lia.
    destruct Hlt as [Hlt|Hlt]; [left|right]; exists i; (split; [|exact Hlt]); intros j Hj; [exact (pre_digit i _ _ Hp j Hj)|exact (pre_digit i _ _ (eq_sym Hp) j Hj)].
Qed.

Context {K V : Type} {KK : Key K}.
Definition ele (e e' : K * V) : Prop := hle (hash (cls (fst e))) (hash (cls (fst e'))).

Lemma ss_one_hash (l : list (K * V)) h : (forall e, In e l -> hash (ecls e) = h) -> StronglySorted ele l.
Proof.
  induction l as [|a l IH]; intros H; constructor; [apply IH; intros e He; apply H; right; exact He|].
  apply Forall_forall. intros e He. left. change (hash (ecls a) = hash (ecls e)). rewrite !H; [reflexivity|right; exact He|left; reflexivity].
Qed.
Lemma wf_sorted (n : mnode K V) : forall d p, wf d p n -> StronglySorted ele (m_visit n).
Proof.
  induction n as [bits values x IH|l|s] using mnode_ind'; intros d p HW.
  - rewrite Forall_forall in IH. destruct (wf_C_inv _ _ _ _ _ HW) as [Hok Hch]. rewrite (visit_C _ _ _ _ Hok). apply ss_flat.
    + intros i. destruct (getv bits values i) as [c|] eqn:Hg; [|constructor]. exact (IH c (getv_in _ _ _ _ Hg) _ _ (Hch i c Hg)).
    + intros i j a b Hij Ha Hb. destruct (getv bits values i) as [c|] eqn:Hg; [|destruct Ha]. destruct (getv bits values j) as [c'|] eqn:Hg'; [|destruct Hb].
      cbn [ovisit] in Ha, Hb. right. exists d. split.
      * intros k Hk. rewrite !digit_idx. refine (pre_digit d _ _ _ k Hk). change (pre d (hash (ecls a)) = pre d (hash (ecls b))).
        rewrite !(wf_keys _ _ _ HW); [reflexivity| |]; [apply (child_entries _ _ _ _ _ _ _ HW Hg') in Hb|apply (child_entries _ _ _ _ _ _ _ HW Hg) in Ha]; tauto.
      * rewrite !digit_idx. change (idx d (hash (ecls a)) < idx d (hash (ecls b))).
        rewrite (wf_C_idx _ _ _ _ _ _ _ _ HW Hg Ha), (wf_C_idx _ _ _ _ _ _ _ _ HW Hg' Hb). exact Hij.
  - destruct (leaf_shape (ML l) d p HW eq_refl) as (_ & h & Hh & _). exact (ss_one_hash _ h Hh).
  - destruct (leaf_shape (MS s) d p HW eq_refl) as (_ & h & Hh & _). exact (ss_one_hash _ h Hh).
Qed.

Theorem visit_sorted (m : trie K V) : reachable m -> StronglySorted ele (map_visit m).
Proof. intros HR. exact (wf_sorted m 0 0 (reachable_mwf _ HR)). Qed.
Theorem visit_order (m : trie K V) l1 e l2 e' l3 : reachable m -> map_visit m = l1 ++ e :: l2 ++ e' :: l3 ->
  hash (cls (fst e)) = hash (cls (fst e')) \/ earlier (log_b fw) (hash (cls (fst e))) (hash (cls (fst e'))).
Proof.
  intros HR H. pose proof (visit_sorted m HR) as HS. rewrite H in HS. clear H.
  induction l1 as [|a l1 IH]; inversion HS as [|? ? Hl Ha]; subst; [|apply IH; assumption].
  rewrite Forall_forall in Ha. apply Ha. apply in_or_app. right. left. reflexivity.
Qed.
(** Entries of equal hash stand together. *)
Theorem visit_groups (m : trie K V) l1 e l2 e' l3 : reachable m -> map_visit m = l1 ++ e :: l2 ++ e' :: l3 ->
  hash (cls (fst e)) = hash (cls (fst e')) -> forall x, In x l2 -> hash (cls (fst x)) = hash (cls (fst e)).
Proof.
  intros HR H Hh x Hx. pose proof (visit_sorted m HR) as HS. rewrite H in HS.
  destruct (ss_between _ _ _ _ _ _ x HS Hx) as (H1 & H2 & _). unfold ele in *. rewrite <- Hh in H2. symmetry. exact (hle_anti _ _ H1 H2).
Qed.

End Order.

(** * Two maps *)
Section Two.
Context {E : Env} {K V L W : Type} {KK : Key K} {KL : Key L}.

Theorem same_hashes (m : trie K V) (m' : trie L W) : reachable m -> reachable m' -> same_keys (map_visit m) (map_visit m') ->
  map (fun e => hash (cls (fst e))) (map_visit m) = map (fun e => hash (cls (fst e))) (map_visit m').
Proof.
  intros HR HR' HS. apply (ss_perm hle hle_anti); [apply ss_map; exact (visit_sorted m HR)|apply ss_map; exact (visit_sorted m' HR')|].
  change (Permutation (map (fun e => hash (ecls e)) (map_visit m)) (map (fun e => hash (ecls e)) (map_visit m'))).
  rewrite <- (map_map ecls hash (map_visit m)), <- (map_map ecls hash (map_visit m')). apply Permutation_map.
  apply NoDup_Permutation; [exact (mwf_uniq _ (reachable_mwf _ HR))|exact (mwf_uniq _ (reachable_mwf _ HR'))|]. intros c. rewrite !in_map_iff. specialize (HS c).
  split; intros (e & H1 & H2); [destruct (proj1 HS) as (e' & H3 & H4)|destruct (proj2 HS) as (e' & H3 & H4)]; eauto.
Qed.
Theorem same_order (m : trie K V) (m' : trie L W) : reachable m -> reachable m' -> free m -> same_keys (map_visit m) (map_visit m') ->
  map (fun e => cls (fst e)) (map_visit m) = map (fun e => cls (fst e)) (map_visit m').
Proof.
  intros HR HR' HF HS. apply (map_inj hash (map ecls (map_visit m))).
  - intros c c' Hc Hc' Hh. apply in_map_iff in Hc. apply in_map_iff in Hc'. destruct Hc as (e & <- & He). destruct Hc' as (e' & <- & He'). exact (HF e e' He He' Hh).
  - intros c Hc. exact Hc.
  - intros c Hc. apply in_map_iff in Hc. destruct Hc as (e' & Hc & He'). destruct (proj2 (HS c)) as (e & He & Hce); [eauto|]. apply in_map_iff. eauto.
  - rewrite !map_map. exact (same_hashes m m' HR HR' HS).
Qed.

End Two.

(** * The trie itself *)
Section Equal.
Context {E : Env} {K V : Type} {KK : Key K}.

Lemma found_same (m m' : trie K V) : reachable m -> reachable m' -> (forall k : K, map_find m k = map_find m' k) -> forall e, In e (map_visit m) <-> In e (map_visit m').
Proof.
  assert (H1 : forall m m' : trie K V, reachable m -> reachable m' -> (forall k : K, map_find m k = map_find m' k) -> forall e, In e (map_visit m) -> In e (map_visit m')).
  { intros a b HA HB H e He. specialize (H (fst e)). rewrite (map_find_ok a (fst e) (reachable_mwf _ HA)) in H.
    change (cls (fst e)) with (ecls e) in H. rewrite (in_lookup _ _ (mwf_uniq _ (reachable_mwf _ HA)) He) in H. cbn [find_res] in H.
    symmetry in H. apply (found_in b) in H; [|exact HB]. exact (proj1 H). }
  intros HA HB H e. split; apply H1; auto.
Qed.
(** Without collisions contents determine the visit. *)
Theorem same_visit (m m' : trie K V) : reachable m -> reachable m' -> free m -> (forall k : K, map_find m k = map_find m' k) -> map_visit m = map_visit m'.
Proof.
  intros HR HR' HF H. pose proof (found_same m m' HR HR' H) as HI. apply (map_inj (fun e => cls (fst e)) (map_visit m)).
  - intros e e' He He' Hc. pose proof (in_lookup _ _ (mwf_uniq _ (reachable_mwf _ HR)) He) as H1. pose proof (in_lookup _ _ (mwf_uniq _ (reachable_mwf _ HR)) He') as H2.
    unfold ecls in H1, H2. rewrite Hc, H2 in H1. injection H1 as ->. reflexivity.
  - intros e He. exact He.
  - intros e He. apply HI. exact He.
  - apply same_order; [exact HR|exact HR'|exact HF|]. apply found_keys; assumption.
Qed.

Lemma list_visit (l : lnode K V) : forall l', lok l -> lok l' -> l_visit l = l_visit l' -> l = l'.
Proof.
  assert (Hne : forall l0 : lnode K V, l_visit l0 <> []) by (intros l0; destruct l0; discriminate).
  assert (Hne1 : forall (l0 : lnode K V) a, l_visit l0 <> [a]) by (intros [? ? n ?|? ? s ?] a; [cbn [l_visit]; intros [= _ H]; exact (Hne n H)|discriminate]).
  induction l as [k v n IH z|k v s z]; intros [k' v' n' z'|k' v' s' z'] HL HL' H; cbn [l_visit lok] in *.
  - injection H as <- <- H. destruct HL as [-> HL]. destruct HL' as [-> HL']. rewrite (IH n' HL HL' H). reflexivity.
  - injection H as _ _ H. destruct (Hne1 n (s_key s', s_value s')). exact H.
  - injection H as _ _ H. destruct (Hne1 n' (s_key s, s_value s)). symmetry. exact H.
  - destruct s as [a b], s' as [a' b']. cbn in H. injection H as <- <- <- <-. subst. reflexivity.
Qed.
Lemma concat_split {A B} (f : A -> list B) (l l' : list A) : Forall2 (fun x y => length (f x) = length (f y)) l l' ->
  concat (map f l) = concat (map f l') -> Forall2 (fun x y => f x = f y) l l'.
Proof.
  induction 1 as [|x y l l' Hxy H IH]; intros Hc; constructor; cbn [map concat] in Hc.
  - apply (f_equal (firstn (length (f x)))) in Hc. rewrite Hxy in Hc at 2. rewrite !firstn_app, !Nat.sub_diag, !firstn_all, !firstn_O, !app_nil_r in Hc. exact Hc.
  - apply IH. apply (f_equal (skipn (length (f x)))) in Hc. rewrite Hxy in Hc at 2. rewrite !skipn_app, !Nat.sub_diag, !skipn_all in Hc. exact Hc.
Qed.
Lemma map_eq_F2 {A B} (f : A -> B) (l l' : list A) : map f l = map f l' -> Forall2 (fun x y => f x = f y) l l'.
Proof. revert l'. induction l as [|a l IH]; intros [|b l'] H; try discriminate; constructor; cbn [map] in H; injection H as H1 H2; [exact H1|apply IH; exact H2]. Qed.
Lemma F2_in {A} (R S : A -> A -> Prop) l l' : Forall2 R l l' -> (forall x y, In x l -> In y l' -> R x y -> S x y) -> Forall2 S l l'.
Proof.
  induction 1 as [|x y l l' Hxy H IH]; intros Hi; constructor; [apply Hi; [left; reflexivity|left; reflexivity|exact Hxy]|].
  apply IH. intros a b Ha Hb. apply Hi; right; assumption.
Qed.
Lemma F2_eq {A} (l l' : list A) : Forall2 eq l l' -> l = l'.
Proof. induction 1; congruence. Qed.

Lemma child_wf d p bits (values : list (mnode K V)) x c : wf d p (MC (BIA bits values x)) -> In c values -> exists d' p', wf d' p' c.
Proof.
  intros HW Hc. destruct (wf_C_inv _ _ _ _ _ HW) as [Hok Hch]. destruct (in_values_get _ _ _ c Hok Hc) as (i & _ & Hi). eauto.
Qed.
Lemma shape_len (n : mnode K V) : forall (n' : mnode K V) d p d' p', wf d p n -> wf d' p' n' -> shape_of n = shape_of n' -> length (m_visit n) = length (m_visit n').
Proof.
  induction n as [bits values x IH|l|s] using mnode_ind'; intros n' d p d' p' HW HW' HS.
  - destruct n' as [[bits' values' x']|l'|s']; [|discriminate..]. cbn [shape_of] in HS. injection HS as _ HS. cbn [m_visit]. rewrite Forall_forall in IH.
    assert (HF : Forall2 (fun x y : mnode K V => length (m_visit x) = length (m_visit y)) values values').
    { apply map_eq_F2 in HS. eapply F2_in; [exact HS|]. intros a b Ha Hb Hab. destruct (child_wf _ _ _ _ _ a HW Ha) as (d1 & p1 & H1).
      destruct (child_wf _ _ _ _ _ b HW' Hb) as (d2 & p2 & H2). exact (IH a Ha b _ _ _ _ H1 H2 Hab). }
    clear -HF. induction HF as [|a b l l' Hab _ IH]; cbn [map concat]; [reflexivity|]. rewrite !app_length, Hab, IH. reflexivity.
  - destruct (leaf_shape _ _ _ HW eq_refl) as (_ & h & _ & H1). rewrite H1 in HS. destruct n' as [[bits' values' x']|l'|s']; [discriminate|..];
      destruct (leaf_shape _ _ _ HW' eq_refl) as (_ & h' & _ & H2); rewrite H2 in HS; apply Nat2N.inj; exact (f_equal (fun b => match b with Bucket _ z => z | _ => 0 end) HS).
  - destruct (leaf_shape _ _ _ HW eq_refl) as (_ & h & _ & H1). rewrite H1 in HS. destruct n' as [[bits' values' x']|l'|s']; [discriminate|..];
      destruct (leaf_shape _ _ _ HW' eq_refl) as (_ & h' & _ & H2); rewrite H2 in HS; apply Nat2N.inj; exact (f_equal (fun b => match b with Bucket _ z => z | _ => 0 end) HS).
Qed.
Lemma shape_visit (n : mnode K V) : forall (n' : mnode K V) d p d' p', wf d p n -> wf d' p' n' -> shape_of n = shape_of n' -> m_visit n = m_visit n' -> n = n'.
Proof.
  induction n as [bits values x IH|l|s] using mnode_ind'; intros n' d p d' p' HW HW' HS HV.
  - destruct n' as [[bits' values' x']|l'|s']; [|discriminate..]. cbn [shape_of] in HS. injection HS as <- HS. rewrite Forall_forall in IH.
    apply map_eq_F2 in HS. cbn [m_visit] in HV.
    assert (HF : Forall2 (fun x y : mnode K V => m_visit x = m_visit y) values values').
    { apply concat_split; [|exact HV]. eapply F2_in; [exact HS|]. intros a b Ha Hb Hab. destruct (child_wf _ _ _ _ _ a HW Ha) as (d1 & p1 & H1).
      destruct (child_wf _ _ _ _ _ b HW' Hb) as (d2 & p2 & H2). exact (shape_len a b _ _ _ _ H1 H2 Hab). }
    assert (Hv : values = values').
    { apply F2_eq. assert (HB : Forall2 (fun x y : mnode K V => shape_of x = shape_of y /\ m_visit x = m_visit y) values values').
      { clear -HS HF. induction HF as [|a b l l' Hab _ IH]; [constructor|]. inversion HS; subst. constructor; [split; assumption|apply IH; assumption]. }
      eapply F2_in; [exact HB|]. intros a b Ha Hb [H1 H2]. destruct (child_wf _ _ _ _ _ a HW Ha) as (d1 & p1 & W1).
      destruct (child_wf _ _ _ _ _ b HW' Hb) as (d2 & p2 & W2). exact (IH a Ha b _ _ _ _ W1 W2 H1 H2). }
    subst values'. inversion HW as [| |? ? ? ? ? _ _ _ _ Hx _]; subst. inversion HW' as [| |? ? ? ? ? _ _ _ _ Hx' _]; subst. reflexivity.
  - destruct n' as [[bits' values' x']|l'|s']; [discriminate|..]; cbn [m_visit] in HV.
    + f_equal. inversion HW as [|? ? ? ? (H1 & _) _|]; subst. inversion HW' as [|? ? ? ? (H2 & _) _|]; subst. apply list_visit; assumption.
    + exfalso. destruct l as [? ? n ?|]; [destruct n|]; discriminate.
  - destruct n' as [[bits' values' x']|l'|s']; [discriminate|..]; cbn [m_visit] in HV.
    + exfalso. destruct l' as [? ? n ?|]; [destruct n|]; discriminate.
    + destruct s as [a b], s' as [a' b']. cbn in HV. injection HV as <- <-. reflexivity.
Qed.

(** Maps built without remove that are visited alike are alike. *)
Theorem visit_same (m m' : trie K V) : unpruned m -> unpruned m' -> rooted m = rooted m' -> map_visit m = map_visit m' -> m = m'.
Proof.
  intros HU HU' HR HV. apply (shape_visit m m' 0 0 0 0); [exact (reachable_mwf _ (unpruned_reachable _ HU))|exact (reachable_mwf _ (unpruned_reachable _ HU'))| |exact HV].
  apply same_shape; [exact HU|exact HU'|exact HR|]. rewrite HV. intros c. reflexivity.
Qed.
Theorem contents_same (m m' : trie K V) : unpruned m -> unpruned m' -> rooted m = rooted m' -> free m -> (forall k : K, map_find m k = map_find m' k) -> m = m'.
Proof.
  intros HU HU' HR HF H. apply visit_same; [exact HU|exact HU'|exact HR|].
  apply same_visit; [exact (unpruned_reachable _ HU)|exact (unpruned_reachable _ HU')|exact HF|exact H].
Qed.
Theorem grown_same (m m' : trie K V) : grown m -> grown m' -> free m -> (forall k : K, map_find m k = map_find m' k) -> m = m'.
Proof.
  intros HG HG'. apply contents_same; [exact (grown_unpruned m HG)|exact (grown_unpruned m' HG')|]. rewrite (grown_rooted m HG), (grown_rooted m' HG'). reflexivity.
Qed.

End Equal.
