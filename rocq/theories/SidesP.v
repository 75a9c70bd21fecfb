(** The one-sided constants are closures: extensionality of
    transform_with_transformed in the operation on common keys, entry by
    entry. *)
From Coq Require Import NArith Arith List Bool Lia.
From Verif Require Import Base Words Flag Bia BiaP Node Api ApiP Spec SpecP SpecJ Trans Transform Joint JointT Inv Reach ReachP MapP
  JointMapP JointTMapP Profile WeakJointP Sets Sides.
Import ListNotations.
Open Scope N_scope.

Section Ext.
Context {E : Env} {K V R : Type} {KK : Key K}.
Context (rdef : R) (rd : R -> R -> R) (st : strategy).

Lemma jflip_jflip {A} (b : joint_op A V R) : jflip (jflip b) = b.
Proof. destruct b as [f fl| | | |]; cbn; rewrite ?negb_involutive; reflexivity. Qed.

(** Two operations answer alike when entries meet directly or exchanged. *)
Definition alike (b1 b2 : joint_op (K * V) V R) (c : bool) (e e' : K * V) : Prop :=
  if c then jcall (jflip b1) e' e = jcall (jflip b2) e' e else jcall b1 e e' = jcall b2 e e'.

Lemma alike_flip b1 b2 c e e' : alike b1 b2 c e e' -> alike (jflip b1) (jflip b2) (negb c) e' e.
Proof. destruct c; cbn; rewrite ?jflip_jflip; auto. Qed.

Section Leaf.
Context (b1 b2 : joint_op (K * V) V R) (lop rop : transform_op (K * V) V R).

Lemma tt_s_impl_ext (s s' : snode K V) :
  (cls (s_key s) = cls (s_key s') -> jcall b1 (s_key s, s_value s) (s_key s', s_value s') = jcall b2 (s_key s, s_value s) (s_key s', s_value s')) ->
  tt_s_impl rd b1 lop rop s s' = tt_s_impl rd b2 lop rop s s'.
Proof.
  intros H. unfold tt_s_impl, keqb. destruct (ceqb_spec (cls (s_key s)) (cls (s_key s'))) as [Hc|]; [|reflexivity].
  rewrite H by assumption. reflexivity.
Qed.

Lemma tt_ls_impl_ext (l : lnode K V) (s : snode K V) :
  (forall e, In e (l_visit l) -> cls (fst e) = cls (s_key s) -> jcall b1 e (s_key s, s_value s) = jcall b2 e (s_key s, s_value s)) ->
  tt_ls_impl rd b1 lop rop l s = tt_ls_impl rd b2 lop rop l s.
Proof.
  induction l as [k v n IH z|k v s0 z]; intros H; cbn [tt_ls_impl l_key l_value l_next]; unfold keqb;
    destruct (ceqb_spec (cls k) (cls (s_key s))) as [Hc|].
  - rewrite (H (k, v)); [reflexivity|left; reflexivity|assumption].
  - rewrite IH; [reflexivity|]. intros e He. apply H. right. exact He.
  - rewrite (H (k, v)); [reflexivity|left; reflexivity|assumption].
  - rewrite tt_s_impl_ext; [reflexivity|]. intros Hc. apply H; [right; left; reflexivity|assumption].
Qed.

Lemma tt_l_impl_ext (l : lnode K V) : forall rights,
  (forall e e', In e (l_visit l) -> In e' rights -> cls (fst e) = cls (fst e') -> jcall b1 e e' = jcall b2 e e') ->
  tt_l_impl rd b1 lop rop l rights = tt_l_impl rd b2 lop rop l rights /\
  forall t rest, tt_l_impl rd b2 lop rop l rights = Ret (t, rest) -> forall x, In x rest -> In x rights.
Proof.
  induction l as [k v n IH z|k v s z]; intros rights H; cbn [tt_l_impl l_key l_value l_visit] in *.
  - destruct (IH rights) as [Hn Hs]; [intros e e' He; apply H; right; exact He|]. rewrite Hn.
    destruct (tt_l_impl rd b2 lop rop n rights) as [[next rest]| |] eqn:Hl; cbn [bind]; [|split; [reflexivity|discriminate]..].
    specialize (Hs next rest eq_refl).
    destruct (take_key k rest) as [[e' rest']|] eqn:Ht.
    + destruct (take_key_sub _ _ _ _ Ht) as (Hi & Hk & Hr). unfold keqb in Hk. destruct (ceqb_spec (cls k) (cls (fst e'))) as [Hc|]; [|discriminate].
      rewrite (H (k, v) e'); [|left; reflexivity|auto|assumption]. split; [reflexivity|].
      intros t x. destruct (jj _ _ _ _ _); cbn [bind]; [|discriminate..]. intros [= _ <-]. auto.
    + split; [reflexivity|]. intros t x. destruct (jj _ _ _ _ _); cbn [bind]; [|discriminate..]. intros [= _ <-]. auto.
  - destruct (take_key (s_key s) rights) as [[e0 rest]|] eqn:Ht0; cbn [bind].
    + destruct (take_key_sub _ _ _ _ Ht0) as (Hi0 & Hk0 & Hr0).
      rewrite tt_s_impl_ext by (cbn [s_key s_value]; intros Hc; rewrite <- surjective_pairing; apply H; [right; left; reflexivity|assumption|assumption]).
      destruct (take_key k rest) as [[e' rest']|] eqn:Ht.
      * destruct (take_key_sub _ _ _ _ Ht) as (Hi & Hk & Hr). unfold keqb in Hk. destruct (ceqb_spec (cls k) (cls (fst e'))) as [Hc|]; [|discriminate].
        rewrite (H (k, v) e'); [|left; reflexivity|auto|assumption]. split; [reflexivity|].
        intros t x. destruct (jj _ _ _ _ _); cbn [bind]; [|discriminate..]. intros [= _ <-]. auto.
      * split; [reflexivity|]. intros t x. destruct (jj _ _ _ _ _); cbn [bind]; [|discriminate..]. intros [= _ <-]. auto.
    + destruct (take_key k rights) as [[e' rest']|] eqn:Ht.
      * destruct (take_key_sub _ _ _ _ Ht) as (Hi & Hk & Hr). unfold keqb in Hk. destruct (ceqb_spec (cls k) (cls (fst e'))) as [Hc|]; [|discriminate].
        rewrite (H (k, v) e'); [|left; reflexivity|auto|assumption]. split; [reflexivity|].
        intros t x. destruct (jj _ _ _ _ _); cbn [bind]; [|discriminate..]. intros [= _ <-]. auto.
      * split; [reflexivity|]. intros t x. destruct (jj _ _ _ _ _); cbn [bind]; [|discriminate..]. intros [= _ <-]. auto.
Qed.

Lemma rights_loop_in n : forall (right : lnode K V) rights rs, rights_loop n right right rights = Ret rs ->
  (forall x, In x rights -> In x (l_visit right)) -> forall x, In x rs -> In x (l_visit right).
Proof.
  induction n as [|n IH]; intros right rights rs; cbn [rights_loop]; [discriminate|].
  destruct right as [k v l z|k v s z]; cbn [l_next l_visit].
  - intros HL Hin. apply (IH _ _ _ HL). intros x Hx. apply in_app_iff in Hx. destruct Hx as [Hx|[<-|[]]]; [apply Hin; exact Hx|].
    right. destruct l; left; reflexivity.
  - intros [= <-] Hin x Hx. apply in_app_iff in Hx. destruct Hx as [Hx|[<-|[]]]; [apply Hin; exact Hx|]. right. left. reflexivity.
Qed.

End Leaf.

Lemma tt_leaf_ext b1 b2 lop rop (x y : lnext K V) d :
  (forall e e', In e (next_visit x) -> In e' (next_visit y) -> cls (fst e) = cls (fst e') -> alike b1 b2 (negb (is_list x) && is_list y) e e') ->
  tt_leaf rd b1 lop rop x y d = tt_leaf rd b2 lop rop x y d.
Proof.
  destruct x as [l|s], y as [l'|s']; cbn [tt_leaf next_visit is_list negb andb]; intros H.
  - unfold tt_lnode. destruct (_ =? _); [|reflexivity].
    destruct (rights_loop _ _ _ _) as [rights| |] eqn:Hr; cbn [bind]; [|reflexivity..].
    destruct (tt_l_impl_ext b1 b2 lop rop l rights) as [Hl _]; [|rewrite Hl; reflexivity].
    intros e e' He He' Hc. refine (H e e' He _ Hc). refine (rights_loop_in _ _ _ _ Hr _ _ He').
    intros z [<-|[]]. destruct l'; left; reflexivity.
  - unfold tt_lsnode. destruct (_ =? _); [|reflexivity]. f_equal. apply tt_ls_impl_ext. intros e He Hc.
    exact (H e (s_key s', s_value s') He (or_introl eq_refl) Hc).
  - unfold tt_lsnode. destruct (_ =? _); [|reflexivity]. cbn [bind]. do 2 f_equal. apply tt_ls_impl_ext. intros e He Hc.
    exact (H (s_key s, s_value s) e (or_introl eq_refl) He (eq_sym Hc)).
  - unfold tt_snode. destruct (_ =? _); [|reflexivity]. f_equal. apply tt_s_impl_ext. intros Hc.
    exact (H (s_key s, s_value s) (s_key s', s_value s') (or_introl eq_refl) (or_introl eq_refl) Hc).
Qed.

Lemma loop_eq {R'} (f g : acc K V R' -> N -> outcome (acc K V R')) l : (forall a i, f a i = g a i) -> forall a, loop f l a = loop g l a.
Proof.
  intros H. induction l as [|i l IH]; intros a; [reflexivity|]. cbn [loop]. rewrite H. destruct (g a i); cbn [bind]; auto.
Qed.
Lemma run_loop_eq (f g : acc K V R -> N -> outcome (acc K V R)) : (forall a i, f a i = g a i) -> run_loop rdef rd st f = run_loop rdef rd st g.
Proof.
  intros H. unfold run_loop, halves. destruct st; [apply loop_eq; exact H|].
  rewrite !(loop_eq f g _ H). reflexivity.
Qed.

Lemma bat_bit_index_in {A} w (b : bia A) i a : bat_bit_index w b i = Ret (Ok a) -> In a (bvalues b).
Proof.
  unfold bat_bit_index. destruct (nth_bit w i); [|discriminate]. destruct (bit_index _ _); [|discriminate].
  unfold nthN, unwrap. destruct (nth_error _ _) eqn:Hn; cbn [bind]; [|discriminate]. intros [= <-]. eapply nth_error_In. eassumption.
Qed.

Lemma leaves_in (bits : N) (values : list (mnode K V)) x c d y : In c values -> In (d, y) (leaves c) -> In (d + 1, y) (leaves (MC (BIA bits values x))).
Proof.
  intros Hc Hy. cbn [leaves]. apply in_map_iff. exists (d, y). split; [reflexivity|]. apply in_concat. exists (leaves c). split; [apply in_map; exact Hc|exact Hy].
Qed.
Lemma leaves_inv (bits : N) (values : list (mnode K V)) x d y : In (d, y) (leaves (MC (BIA bits values x))) ->
  exists c d0, In c values /\ In (d0, y) (leaves c) /\ d = d0 + 1.
Proof.
  cbn [leaves]. intros H. apply in_map_iff in H. destruct H as ((d0 & y0) & [= <- <-] & H). apply in_concat in H.
  destruct H as (l & Hl & H). apply in_map_iff in Hl. destruct Hl as (c & <- & Hc). exists c, d0. auto.
Qed.

Lemma tt_tree_leaf_ext b1 b2 lop rop (y : lnext K V) (n : mnode K V) : forall d,
  (forall d x e e', In (d, x) (leaves n) -> In e (next_visit x) -> In e' (next_visit y) -> cls (fst e) = cls (fst e') ->
     alike b1 b2 (negb (is_list x) && is_list y) e e') ->
  tt_tree_leaf rdef rd st b1 lop rop y n d = tt_tree_leaf rdef rd st b2 lop rop y n d.
Proof.
  unfold tt_tree_leaf. induction n as [bits values x IH|l|s] using mnode_ind'; intros d H; cbn [m_leaf].
  - destruct (flag_new_at_depth _ _) as [fl| |]; cbn [bind]; [|reflexivity..]. destruct (unwrap fl) as [flag| |]; cbn [bind]; [|reflexivity..].
    erewrite loop_eq; [reflexivity|]. intros a i. unfold cl_step. rewrite !bat_bit_index_map.
    destruct (bat_bit_index fw (BIA bits values x) i) as [[c|err]| |] eqn:Hb; cbn [bind]; [|reflexivity..].
    apply bat_bit_index_in in Hb. cbn [bvalues] in Hb. destruct (unwrap_ok _) as [bit| |]; cbn [bind]; [|reflexivity..].
    destruct (_ =? bit); [|reflexivity]. rewrite Forall_forall in IH. rewrite (IH c Hb); [reflexivity|].
    intros d0 z e e' Hz. apply (H (d0 + 1)). apply (leaves_in bits values x c); assumption.
  - apply tt_leaf_ext. intros e e' He. apply (H 0 (NL l)); [left; reflexivity|exact He].
  - apply tt_leaf_ext. intros e e' He. apply (H 0 (NS s)); [left; reflexivity|exact He].
Qed.

(** The entries of both tries meet, directly or exchanged, as [crossed] says. *)
Definition all_alike (b1 b2 : joint_op (K * V) V R) (n right : mnode K V) : Prop :=
  forall d x d' y e e', In (d, x) (leaves n) -> In (d', y) (leaves right) -> In e (next_visit x) -> In e' (next_visit y) ->
    cls (fst e) = cls (fst e') -> alike b1 b2 (crossed (d, is_list x) (d', is_list y)) e e'.

Lemma tt_leaf_tree_ext b1 b2 lop rop (x : lnext K V) bits values z d :
  all_alike b1 b2 (next_mnode x) (MC (BIA bits values z)) ->
  tt_leaf_tree rdef rd st b1 lop rop x (MC (BIA bits values z)) d = tt_leaf_tree rdef rd st b2 lop rop x (MC (BIA bits values z)) d.
Proof.
  intros H. unfold tt_leaf_tree. rewrite (tt_tree_leaf_ext (jflip b1) (jflip b2)); [reflexivity|].
  intros d' y e' e Hy He' He Hc. assert (Hx : In (0, x) (leaves (next_mnode x))) by (destruct x; left; reflexivity).
  pose proof (H 0 x d' y e e' Hx Hy He He' (eq_sym Hc)) as Ha. destruct (leaves_inv _ _ _ _ _ Hy) as (c & d0 & _ & _ & ->).
  unfold crossed in Ha. cbn [fst snd] in Ha. replace (0 <? d0 + 1) with true in Ha by (symmetry; apply N.ltb_lt; lia).
  apply alike_flip in Ha. rewrite negb_involutive in Ha. rewrite andb_comm. exact Ha.
Qed.

Lemma m_tt_ext b1 b2 lop rop (n : mnode K V) : forall right d, all_alike b1 b2 n right ->
  (branches n right = true -> tt_short (K := K) (V := V) b1 lop rop = None /\ tt_short (K := K) (V := V) b2 lop rop = None) ->
  m_tt rdef rd st b1 lop rop n right d = m_tt rdef rd st b2 lop rop n right d.
Proof.
  unfold m_tt. induction n as [bits values x IH|l|s] using mnode_ind'; intros right d H HS.
  - destruct right as [[rbits rvalues rx]|l|s].
    + cbn [m_joint]. destruct (HS eq_refl) as [HS1 HS2]. rewrite HS1, HS2. erewrite run_loop_eq; [reflexivity|]. intros a i. unfold cc_step. rewrite !bat_bit_index_map.
      destruct (bat_bit_index fw (BIA bits values x) i) as [[c|err]| |] eqn:Hb; cbn [bind]; [|reflexivity..].
      apply bat_bit_index_in in Hb. cbn [bvalues] in Hb.
      destruct (bat_bit_index fw (BIA rbits rvalues rx) i) as [[c'|err]| |] eqn:Hb'; cbn [bind]; [|reflexivity..].
      apply bat_bit_index_in in Hb'. cbn [bvalues] in Hb'.
      rewrite Forall_forall in IH. enough (Ha : all_alike b1 b2 c c').
      { pose proof (IH c Hb c' (d + 1) Ha (fun _ => conj HS1 HS2)) as Hj. rewrite HS1, HS2 in Hj. rewrite Hj. reflexivity. }
      intros d1 y d2 y' e e' Hy Hy' He He' Hc.
      pose proof (H (d1 + 1) y (d2 + 1) y' e e' (leaves_in _ _ _ _ _ _ Hb Hy) (leaves_in _ _ _ _ _ _ Hb' Hy') He He' Hc) as Ha.
      unfold crossed in Ha |- *. cbn [fst snd] in Ha |- *. replace (d1 + 1 <? d2 + 1) with (d1 <? d2) in Ha; [exact Ha|].
      destruct (N.ltb_spec d1 d2), (N.ltb_spec (d1 + 1) (d2 + 1)); auto; lia.
    + cbn [m_joint]. apply tt_tree_leaf_ext. intros d0 y e e' Hy He He' Hc.
      pose proof (H d0 y 0 (NL l) e e' Hy (or_introl eq_refl) He He' Hc) as Ha.
      destruct (leaves_inv _ _ _ _ _ Hy) as (c & d1 & _ & _ & ->). unfold crossed in Ha. cbn [fst snd] in Ha.
      replace (d1 + 1 <? 0) with false in Ha by (symmetry; apply N.ltb_ge; lia). exact Ha.
    + cbn [m_joint]. apply tt_tree_leaf_ext. intros d0 y e e' Hy He He' Hc.
      pose proof (H d0 y 0 (NS s) e e' Hy (or_introl eq_refl) He He' Hc) as Ha.
      destruct (leaves_inv _ _ _ _ _ Hy) as (c & d1 & _ & _ & ->). unfold crossed in Ha. cbn [fst snd] in Ha.
      replace (d1 + 1 <? 0) with false in Ha by (symmetry; apply N.ltb_ge; lia). exact Ha.
  - destruct right as [[rbits rvalues rx]|l'|s']; cbn [m_joint].
    + apply tt_leaf_tree_ext. exact H.
    + apply tt_leaf_ext. intros e e' He He' Hc. exact (H 0 (NL l) 0 (NL l') e e' (or_introl eq_refl) (or_introl eq_refl) He He' Hc).
    + apply tt_leaf_ext. intros e e' He He' Hc. exact (H 0 (NL l) 0 (NS s') e e' (or_introl eq_refl) (or_introl eq_refl) He He' Hc).
  - destruct right as [[rbits rvalues rx]|l'|s']; cbn [m_joint].
    + apply tt_leaf_tree_ext. exact H.
    + apply tt_leaf_ext. intros e e' He He' Hc. exact (H 0 (NS s) 0 (NL l') e e' (or_introl eq_refl) (or_introl eq_refl) He He' Hc).
    + apply tt_leaf_ext. intros e e' He He' Hc. exact (H 0 (NS s) 0 (NS s') e e' (or_introl eq_refl) (or_introl eq_refl) He He' Hc).
Qed.

(** * Places *)

Lemma leaves_visit (n : mnode K V) : concat (map (fun x => next_visit (snd x)) (leaves n)) = m_visit n.
Proof.
  induction n as [bits values x IH|l|s] using mnode_ind'; cbn [leaves m_visit map concat snd next_visit]; [|apply app_nil_r..].
  rewrite map_map. cbn [snd]. induction IH as [|c vs Hc _ IHv]; [reflexivity|]. cbn [map concat]. rewrite map_app, concat_app, Hc, IHv. reflexivity.
Qed.

Lemma find_unique (l : list (N * lnext K V)) d x e : uniq (concat (map (fun x => next_visit (snd x)) l)) -> In (d, x) l -> In e (next_visit x) ->
  find (fun x => existsb (fun e0 => ceqb (cls (fst e0)) (cls (fst e))) (next_visit (snd x))) l = Some (d, x).
Proof.
  unfold uniq. induction l as [|[d0 x0] l IH]; cbn [map concat snd find]; [intros _ []|]. rewrite map_app. intros HU Hin He.
  destruct (existsb _ (next_visit x0)) eqn:Hx.
  - destruct Hin as [[= -> ->]|Hin]; [reflexivity|]. exfalso. apply existsb_exists in Hx. destruct Hx as (e0 & He0 & Hc). apply ceqb_eq in Hc.
    assert (H1 : In (ecls e0) (map ecls (next_visit x0))) by (apply in_map; exact He0).
    assert (H2 : In (ecls e0) (map ecls (concat (map (fun x => next_visit (snd x)) l)))).
    { unfold ecls at 1. rewrite Hc. apply (in_map ecls _ e). apply in_concat. exists (next_visit x). split; [|exact He].
      apply in_map_iff. exists (d, x). auto. }
    clear - HU H1 H2. induction (map ecls (next_visit x0)) as [|a t IH]; [destruct H1|]. cbn in HU. inversion HU as [|? ? Hn Hd]; subst.
    destruct H1 as [->|H1]; [apply Hn; apply in_or_app; auto|auto].
  - destruct Hin as [[= -> ->]|Hin].
    + exfalso. assert (existsb (fun e0 => ceqb (cls (fst e0)) (cls (fst e))) (next_visit x) = true); [|congruence].
      apply existsb_exists. exists e. split; [exact He|]. apply ceqb_eq. reflexivity.
    + apply IH; [|exact Hin|exact He]. clear - HU. induction (map ecls (next_visit x0)) as [|a t IHt]; [exact HU|]. inversion HU; auto.
Qed.

Lemma place_leaf (m : mnode K V) d x e : uniq (m_visit m) -> In (d, x) (leaves m) -> In e (next_visit x) ->
  place m (cls (fst e)) = Some (d, is_list x).
Proof. intros HU Hx He. unfold place. rewrite (find_unique (leaves m) d x e); [reflexivity| |exact Hx|exact He]. rewrite leaves_visit. exact HU. Qed.

Lemma turned_leaf (m right : mnode K V) d x d' y e e' : uniq (m_visit m) -> uniq (m_visit right) ->
  In (d, x) (leaves m) -> In (d', y) (leaves right) -> In e (next_visit x) -> In e' (next_visit y) -> cls (fst e) = cls (fst e') ->
  turned m right (cls (fst e)) = crossed (d, is_list x) (d', is_list y).
Proof.
  intros HU HUr Hx Hy He He' Hc. unfold turned. rewrite (place_leaf m d x e HU Hx He). rewrite Hc. rewrite (place_leaf right d' y e' HUr Hy He'). reflexivity.
Qed.

Theorem constant_left r lop rop (m right : trie K V) : reachable m -> reachable right ->
  map_tt rdef rd st (JUnchangedL r) lop rop m right =
  if branches m right && early_left lop rop then Ret (m, r, Self)
  else map_tt rdef rd st (JGeneric (sided_left r m right) false) lop rop m right.
Proof.
  intros HR HRr. pose proof (mwf_uniq _ (reachable_mwf _ HR)) as HU. pose proof (mwf_uniq _ (reachable_mwf _ HRr)) as HUr.
  destruct (branches m right && early_left lop rop) eqn:HS.
  - apply andb_true_iff in HS. destruct HS as [HB HE]. destruct m as [[bits values x]|l|s]; [|discriminate..]. destruct right as [rb|l|s]; [|discriminate..].
    unfold map_tt, m_tt. cbn [m_joint]. destruct lop; try discriminate. destruct rop; try discriminate. reflexivity.
  - unfold map_tt. rewrite (m_tt_ext (JUnchangedL r) (JGeneric (sided_left r m right) false)); [reflexivity| |].
    + intros d x d' y e e' Hx Hy He He' Hc. pose proof (turned_leaf m right d x d' y e e' HU HUr Hx Hy He He' Hc) as HT.
      rewrite <- HT. unfold alike. destruct (turned m right (cls (fst e))) eqn:Ht; cbn [jflip jcall negb]; unfold sided_left; rewrite Ht; reflexivity.
    + intros HB. rewrite HB in HS. cbn in HS. split; [|reflexivity]. destruct lop; try reflexivity. destruct rop; reflexivity || discriminate.
Qed.

Theorem constant_right r lop rop (m right : trie K V) : reachable m -> reachable right ->
  map_tt rdef rd st (JUnchangedR r) lop rop m right =
  if branches m right && early_right lop rop then Ret (right, r, Right)
  else map_tt rdef rd st (JGeneric (sided_right r m right) false) lop rop m right.
Proof.
  intros HR HRr. pose proof (mwf_uniq _ (reachable_mwf _ HR)) as HU. pose proof (mwf_uniq _ (reachable_mwf _ HRr)) as HUr.
  destruct (branches m right && early_right lop rop) eqn:HS.
  - apply andb_true_iff in HS. destruct HS as [HB HE]. destruct m as [[bits values x]|l|s]; [|discriminate..]. destruct right as [rb|l|s]; [|discriminate..].
    unfold map_tt, m_tt. cbn [m_joint]. destruct lop; try discriminate. destruct rop; try discriminate. reflexivity.
  - unfold map_tt. rewrite (m_tt_ext (JUnchangedR r) (JGeneric (sided_right r m right) false)); [reflexivity| |].
    + intros d x d' y e e' Hx Hy He He' Hc. pose proof (turned_leaf m right d x d' y e e' HU HUr Hx Hy He He' Hc) as HT.
      rewrite <- HT. unfold alike. destruct (turned m right (cls (fst e))) eqn:Ht; cbn [jflip jcall negb]; unfold sided_right; rewrite Ht; reflexivity.
    + intros HB. rewrite HB in HS. cbn in HS. split; [|reflexivity]. destruct lop; try reflexivity; destruct rop; reflexivity || discriminate.
Qed.

(** * Maps without colliding hashes *)

Lemma leaf_lwf (n : mnode K V) : forall d p d0 l, wf d p n -> In (d0, NL l) (leaves n) -> exists h, lwf h l.
Proof.
  induction n as [bits values x IH|l0|s] using mnode_ind'; intros d p d0 l HW Hin.
  - destruct (leaves_inv _ _ _ _ _ Hin) as (c & d1 & Hc & Hl & _). inversion HW as [| |? ? ? ? ? _ _ Hok _ _ Hch]; subst.
    destruct (in_values_get _ _ _ _ Hok Hc) as (i & _ & Hi). rewrite Forall_forall in IH. exact (IH c Hc _ _ _ _ (Hch i c Hi) Hl).
  - destruct Hin as [[= <- <-]|[]]. inversion HW; subst. eauto.
  - destruct Hin as [[=]|[]].
Qed.

Definition free (m : trie K V) : Prop := forall e e', In e (map_visit m) -> In e' (map_visit m) ->
  hash (cls (fst e)) = hash (cls (fst e')) -> cls (fst e) = cls (fst e').

Lemma leaf_sub (n : mnode K V) d x e : In (d, x) (leaves n) -> In e (next_visit x) -> In e (m_visit n).
Proof.
  intros Hx He. rewrite <- leaves_visit. apply in_concat. exists (next_visit x). split; [|exact He]. apply in_map_iff. exists (d, x). auto.
Qed.

Lemma free_leaf (m : trie K V) d x : reachable m -> free m -> In (d, x) (leaves m) -> is_list x = false.
Proof.
  intros HR HF Hx. destruct x as [l|s]; [|reflexivity]. exfalso.
  destruct (leaf_lwf m 0 0 d l (reachable_mwf _ HR) Hx) as (h & _ & HU & Hh).
  destruct (l_visit l) as [|a [|b t]] eqn:Hl; [destruct l; discriminate|destruct l as [? ? n ?|]; [destruct n|]; discriminate|].
  unfold uniq in HU. cbn [map] in HU. inversion HU as [|? ? Hn _]; subst. apply Hn. left. symmetry.
  apply HF; [apply (leaf_sub m d (NL l) a Hx); cbn [next_visit]; rewrite Hl; left; reflexivity
    |apply (leaf_sub m d (NL l) b Hx); cbn [next_visit]; rewrite Hl; right; left; reflexivity|].
  change (hash (ecls a) = hash (ecls b)). rewrite !Hh; [reflexivity|right; left; reflexivity|left; reflexivity].
Qed.

Lemma free_place (m : trie K V) e : reachable m -> free m -> In e (map_visit m) -> place m (cls (fst e)) = Some (level m (cls (fst e)), false).
Proof.
  intros HR HF He. unfold map_visit in He. rewrite <- leaves_visit in He. apply in_concat in He. destruct He as (l & Hl & He).
  apply in_map_iff in Hl. destruct Hl as ((d & x) & <- & Hx). cbn [snd] in He. unfold level.
  rewrite (place_leaf m d x e (mwf_uniq _ (reachable_mwf _ HR)) Hx He). rewrite (free_leaf m d x HR HF Hx). reflexivity.
Qed.

(** Without collisions the operands are exchanged where the left trie ends
    first. *)
Lemma free_turned (m right : trie K V) e e' : reachable m -> reachable right -> free m -> free right ->
  In e (map_visit m) -> In e' (map_visit right) -> cls (fst e) = cls (fst e') ->
  turned m right (cls (fst e)) = (level m (cls (fst e)) <? level right (cls (fst e))).
Proof.
  intros HR HRr HF HFr He He' Hc. unfold turned. rewrite (free_place m e HR HF He). rewrite Hc. rewrite (free_place right e' HRr HFr He').
  unfold crossed. cbn [fst snd negb andb]. destruct (_ <? _); reflexivity.
Qed.

Lemma found_in (m : trie K V) Q (KQ : Key Q) (q : Q) e : reachable m -> map_find m q = Ret (Ok e) -> In e (map_visit m) /\ cls (fst e) = cls q.
Proof.
  intros HR. rewrite map_find_ok by (apply reachable_mwf; exact HR). destruct (lookup (cls q) (map_visit m)) as [x|] eqn:Hl; cbn [find_res]; [|discriminate].
  intros [= ->]. exact (lookup_in _ _ _ Hl).
Qed.

Theorem constant_left_free r lop rop (m right : trie K V) : reachable m -> reachable right -> free m -> free right ->
  exists m' r' o, map_tt rdef rd st (JUnchangedL r) lop rop m right = Ret (m', r', o) /\
    forall Q (KQ : Key Q) (q : Q) e e', map_find m q = Ret (Ok e) -> map_find right q = Ret (Ok e') ->
      map_find m' q = Ret (Ok (if (level m (cls q) <? level right (cls q)) && negb (branches m right && early_left lop rop) then e' else e)).
Proof.
  intros HR HRr HF HFr. rewrite constant_left by assumption. destruct (branches m right && early_left lop rop) eqn:HS.
  - exists m, r, Self. split; [reflexivity|]. intros Q KQ q e e' He _. rewrite andb_false_r. exact He.
  - destruct (tt_collision_free rdef rd st (JGeneric (sided_left r m right) false) lop rop m right HR HRr HF HFr (fun H => H)) as (m' & r' & o & HT & fB & HM & HB).
    exists m', r', o. split; [exact HT|]. intros Q KQ q e e' He He'. cbn [negb]. rewrite andb_true_r.
    rewrite (im_find _ _ _ _ _ _ HM). rewrite He, He'. destruct (found_in m Q KQ q e HR He) as [Hi Hc]. destruct (found_in right Q KQ q e' HRr He') as [Hi' Hc'].
    assert (Hcc : cls (fst e) = cls (fst e')) by congruence. pose proof (HB e e' Hi Hi' Hcc) as Hb. cbn [jfound jcall] in Hb |- *. unfold sided_left in Hb.
    rewrite (free_turned m right e e' HR HRr HF HFr Hi Hi' Hcc) in Hb. rewrite Hc in Hb. destruct (_ <? _); cbn [b_to] in Hb; rewrite Hb; reflexivity.
Qed.

Theorem constant_right_free r lop rop (m right : trie K V) : reachable m -> reachable right -> free m -> free right ->
  exists m' r' o, map_tt rdef rd st (JUnchangedR r) lop rop m right = Ret (m', r', o) /\
    forall Q (KQ : Key Q) (q : Q) e e', map_find m q = Ret (Ok e) -> map_find right q = Ret (Ok e') ->
      map_find m' q = Ret (Ok (if (level m (cls q) <? level right (cls q)) && negb (branches m right && early_right lop rop) then e else e')).
Proof.
  intros HR HRr HF HFr. rewrite constant_right by assumption. destruct (branches m right && early_right lop rop) eqn:HS.
  - exists right, r, Right. split; [reflexivity|]. intros Q KQ q e e' _ He'. rewrite andb_false_r. exact He'.
  - destruct (tt_collision_free rdef rd st (JGeneric (sided_right r m right) false) lop rop m right HR HRr HF HFr (fun H => H)) as (m' & r' & o & HT & fB & HM & HB).
    exists m', r', o. split; [exact HT|]. intros Q KQ q e e' He He'. cbn [negb]. rewrite andb_true_r.
    rewrite (im_find _ _ _ _ _ _ HM). rewrite He, He'. destruct (found_in m Q KQ q e HR He) as [Hi Hc]. destruct (found_in right Q KQ q e' HRr He') as [Hi' Hc'].
    assert (Hcc : cls (fst e) = cls (fst e')) by congruence. pose proof (HB e e' Hi Hi' Hcc) as Hb. cbn [jfound jcall] in Hb |- *. unfold sided_right in Hb.
    rewrite (free_turned m right e e' HR HRr HF HFr Hi Hi' Hcc) in Hb. rewrite Hc in Hb. destruct (_ <? _); cbn [b_to] in Hb; rewrite Hb; reflexivity.
Qed.

(** * When the constants do what they say *)

Lemma turned_false_ext r lop rop (m right : trie K V) : reachable m -> reachable right ->
  (forall e e', In e (map_visit m) -> In e' (map_visit right) -> cls (fst e) = cls (fst e') -> turned m right (cls (fst e)) = false) ->
  map_tt rdef rd st (JGeneric (sided_left r m right) false) lop rop m right = map_tt rdef rd st (JGeneric (fun _ _ => BUnchangedL r) false) lop rop m right /\
  map_tt rdef rd st (JGeneric (sided_right r m right) false) lop rop m right = map_tt rdef rd st (JGeneric (fun _ _ => BUnchangedR r) false) lop rop m right.
Proof.
  intros HR HRr HT. unfold map_tt. split.
  - rewrite (m_tt_ext (JGeneric (sided_left r m right) false) (JGeneric (fun _ _ => BUnchangedL r) false)); [reflexivity| |split; reflexivity].
    intros d x d' y e e' Hx Hy He He' Hc. pose proof (HT e e' (leaf_sub _ _ _ _ Hx He) (leaf_sub _ _ _ _ Hy He') Hc) as Ht.
    unfold alike. destruct (crossed _ _); cbn [jflip jcall negb]; unfold sided_left; rewrite Ht; reflexivity.
  - rewrite (m_tt_ext (JGeneric (sided_right r m right) false) (JGeneric (fun _ _ => BUnchangedR r) false)); [reflexivity| |split; reflexivity].
    intros d x d' y e e' Hx Hy He He' Hc. pose proof (HT e e' (leaf_sub _ _ _ _ Hx He) (leaf_sub _ _ _ _ Hy He') Hc) as Ht.
    unfold alike. destruct (crossed _ _); cbn [jflip jcall negb]; unfold sided_right; rewrite Ht; reflexivity.
Qed.

Theorem constants_as_closures r lop rop (m right : trie K V) : reachable m -> reachable right ->
  (forall e e', In e (map_visit m) -> In e' (map_visit right) -> cls (fst e) = cls (fst e') -> turned m right (cls (fst e)) = false) ->
  (branches m right && early_left lop rop = false ->
     map_tt rdef rd st (JUnchangedL r) lop rop m right = map_tt rdef rd st (JGeneric (fun _ _ => BUnchangedL r) false) lop rop m right) /\
  (branches m right && early_right lop rop = false ->
     map_tt rdef rd st (JUnchangedR r) lop rop m right = map_tt rdef rd st (JGeneric (fun _ _ => BUnchangedR r) false) lop rop m right).
Proof.
  intros HR HRr HT. destruct (turned_false_ext r lop rop m right HR HRr HT) as [H1 H2].
  split; intros HS; [rewrite constant_left by assumption|rewrite constant_right by assumption]; rewrite HS; assumption.
Qed.

Lemma turned_self (m : trie K V) c : turned m m c = false.
Proof.
  unfold turned. destruct (place m c) as [[d l]|]; [|reflexivity]. unfold crossed. cbn [fst snd]. rewrite N.ltb_irrefl. apply andb_negb_l.
Qed.

End Ext.

(** * Sets *)
Section SetSides.
Context {E : Env} {K R : Type} {KK : Key K}.
Context (rdef : R) (rd : R -> R -> R) (st : strategy).

Lemma generic_ext {V} (f g : K * V -> K * V -> bres V R) lop rop (m right : trie K V) : (forall e e', f e e' = g e e') ->
  map_tt rdef rd st (JGeneric f false) lop rop m right = map_tt rdef rd st (JGeneric g false) lop rop m right.
Proof.
  intros H. unfold map_tt. rewrite (m_tt_ext rdef rd st (JGeneric f false) (JGeneric g false)); [reflexivity| |split; reflexivity].
  intros d x d' y e e' _ _ _ _ _. unfold alike. destruct (crossed _ _); cbn [jflip jcall negb]; rewrite H; reflexivity.
Qed.

Theorem set_constant_left r lop rop (s right : tset K) : reachable s -> reachable right ->
  set_tt rdef rd st (SJUnchangedL r) lop rop s right =
  if branches s right && early_left (transform_of lop) (transform_of rop) then Ret (s, r, Self)
  else set_tt rdef rd st (SJGeneric (fun k _ => if turned s right (cls k) then SBUnchangedR r else SBUnchangedL r) false) lop rop s right.
Proof.
  intros HR HRr. unfold set_tt. cbn [joint_of]. rewrite constant_left by assumption. destruct (_ && _); [reflexivity|].
  apply generic_ext. intros e e'. unfold sided_left. destruct (turned _ _ _); reflexivity.
Qed.
Theorem set_constant_right r lop rop (s right : tset K) : reachable s -> reachable right ->
  set_tt rdef rd st (SJUnchangedR r) lop rop s right =
  if branches s right && early_right (transform_of lop) (transform_of rop) then Ret (right, r, Right)
  else set_tt rdef rd st (SJGeneric (fun k _ => if turned s right (cls k) then SBUnchangedL r else SBUnchangedR r) false) lop rop s right.
Proof.
  intros HR HRr. unfold set_tt. cbn [joint_of]. rewrite constant_right by assumption. destruct (_ && _); [reflexivity|].
  apply generic_ext. intros e e'. unfold sided_right. destruct (turned _ _ _); reflexivity.
Qed.

End SetSides.
