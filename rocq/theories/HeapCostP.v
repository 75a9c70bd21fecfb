(** How many cells insert and remove allocate. *)
From Coq Require Import NArith Arith List Bool Lia ZifyBool ZifyN ZifyNat Permutation.
From Verif Require Import Base Words WordsP Flag FlagP Bia BiaP Node Spec SpecP Inv NodeP InsertP TrieP Api ApiP Reach ReachP MapP Cost CostP
  Heap SpecH HeapP HeapOpP HeapHistP.
Import ListNotations.
Open Scope N_scope.

Section HeapCost.
Context {E : Env} {K V : Type} {KK : Key K}.
Notation heap := (heap K V).
Implicit Types (h : heap).

Lemma len_snoc {A} (l : list A) x : length (l ++ [x]) = S (length l).
Proof. rewrite app_length. cbn. lia. Qed.

(** Branches from depth [d] on. *)
Definition levels (d : N) (b : nat) : Prop := b = 0%nat \/ off (d + N.of_nat b - 1) < hbits.

Lemma levels_S d b : off d < hbits -> levels (d + 1) b -> levels d (S b).
Proof.
  intros Ho [->|H]; right; [replace (d + N.of_nat 1 - 1) with d by lia; exact Ho|].
  replace (d + N.of_nat (S b) - 1) with (d + 1 + N.of_nat b - 1) by lia. exact H.
Qed.

Lemma bind_ret {A B} (o : outcome A) (f : A -> outcome B) b : bind o f = Ret b -> exists a, o = Ret a /\ f a = Ret b.
Proof. destruct o; cbn; try discriminate. eauto. Qed.

Lemma hc_lift_len fuel : forall d (h1 h2 : N) h this tf right rf a h',
  h1 <> h2 -> h1 < 2 ^ hbits -> h2 < 2 ^ hbits -> pre d h1 = pre d h2 -> flag_for d h1 tf -> flag_for d h2 rf ->
  hc_lift fuel h this tf right rf = Ret (a, h') -> exists b, length h' = (length h + b)%nat /\ levels d b.
Proof.
  induction fuel as [|fuel IH]; intros d h1 h2 h this tf right rf a h' Hne H1 H2 Hp Ht Hr H; [discriminate|].
  pose proof (neq_off d h1 h2 Hne H1 H2 Hp) as Hd. cbn [hc_lift] in H.
  apply bind_ret in H. destruct H as (z1 & _ & H). apply bind_ret in H. destruct H as (z2 & _ & H).
  rewrite (proj2 (proj2 Ht) Hd), (proj2 (proj2 Hr) Hd), pow2_eqb in H.
  destruct (N.eqb_spec (idx d h1) (idx d h2)) as [Hi|Hi].
  - assert (Hp' : pre (d + 1) h1 = pre (d + 1) h2) by (rewrite !pre_succ, Hp, Hi; reflexivity).
    pose proof (neq_off (d + 1) h1 h2 Hne H1 H2 Hp') as Hd'.
    rewrite (flag_next_ok d h1) in H by assumption. cbn [bind unwrap] in H.
    rewrite (flag_next_ok d h2) in H by assumption. cbn [bind unwrap] in H.
    apply bind_ret in H. destruct H as ([a1 h3] & H3 & H). apply bind_ret in H. destruct H as (b & _ & H). injection H as _ <-.
    destruct (IH (d + 1) h1 h2 _ _ _ _ _ _ _ Hne H1 H2 Hp' (flag_for_at _ _ Hd') (flag_for_at _ _ Hd') H3) as (n & Hn & Hl).
    exists (S n). rewrite len_snoc. split; [lia|]. apply levels_S; assumption.
  - apply bind_ret in H. destruct H as (fl & _ & H). apply bind_ret in H. destruct H as (i & _ & H).
    apply bind_ret in H. destruct H as (b & _ & H). injection H as _ <-.
    exists 1%nat. rewrite len_snoc. split; [lia|]. apply levels_S; [exact Hd|left; reflexivity].
Qed.

Lemma hl_lift_len d h x t k v f r h' : rep_next h x t -> pre d (hashk (next_key t)) = pre d (fl_hash f) -> flag_for d (fl_hash f) f ->
  fl_hash f < 2 ^ hbits -> hl_lift h x k v f = Ret (r, h') -> exists b, length h' = (length h + b + 1)%nat /\ levels d b.
Proof.
  intros Ht Hp Hf Hlt H. unfold hl_lift in H.
  assert (Hk : hnext_key h x = Ret (next_key t)).
  { destruct x as [a|a], t as [l|s]; try contradiction; cbn in *.
    - destruct (rep_l_inv _ _ _ Ht) as (y & z & Hn & _). rewrite (get_l_eq _ _ _ _ _ _ Hn). reflexivity.
    - rewrite (get_s_eq _ _ _ Ht). reflexivity. }
  rewrite Hk in H. cbn [bind] in H. destruct (N.eqb_spec (hashk (next_key t)) (fl_hash f)) as [He|Hne].
  - destruct (hl_new_ok h k v x t Ht) as (z & Hnew & _). rewrite Hnew in H. cbn [bind] in H. injection H as _ <-.
    exists 0%nat. rewrite len_snoc. split; [lia|left; reflexivity].
  - pose proof (neq_off d _ _ Hne (hashk_lt (next_key t)) Hlt Hp) as Hd. rewrite (proj1 (proj2 Hf)) in H.
    rewrite flag_at_ok in H by assumption. cbn [bind unwrap hs_new alloc others noise quiet] in H.
    apply bind_ret in H. destruct H as ([a h2] & H2 & H). injection H as _ <-.
    destruct (hc_lift_len _ d _ _ _ _ _ _ _ _ _ Hne (hashk_lt _) Hlt Hp (flag_for_at _ _ Hd) Hf H2) as (b & Hb & Hl).
    rewrite len_snoc in Hb. exists b. split; [lia|exact Hl].
Qed.

Section Query.
Context {Q : Type} {KQ : Key Q}.

Lemma hl_remove_from_len h (q : Q) l : forall a fuel x p h', rep_l h a l -> (a < fuel)%nat ->
  hl_remove_from fuel h a q = Ret (HLRemoved x p, h') -> (S (length h') <= length h + length (l_visit l))%nat.
Proof.
  induction l as [k v l IH z|k v s z]; intros a [|fuel] x p h' H Hf Ho; try lia; cbn [hl_remove_from l_visit length] in *;
    [destruct (rep_LL_inv _ _ _ _ _ _ H) as (b & H3 & Hlb & H7)|destruct (rep_LS_inv _ _ _ _ _ _ H) as (b & H3 & Hlb & H7)];
    rewrite (get_l_eq _ _ _ _ _ _ H3) in Ho; cbn [bind fst snd] in Ho.
  - destruct (keqb k q); [injection Ho as <- <- <-; lia|].
    pose proof (hl_remove_from_ok h q l b fuel H7 ltac:(lia)) as Hr.
    apply bind_ret in Ho. destruct Ho as ([r h1] & Hr1 & Ho). rewrite Hr1 in Hr. inversion Hr as [r0 r' Hrel E1 E2| |]; subst.
    destruct r as [|y c]; [discriminate|]. specialize (IH b fuel y c h1 H7 ltac:(lia) Hr1).
    destruct Hrel as (t & k' & v' & _ & _ & Ht & _).
    destruct (hl_new_ok h1 k v y t Ht) as (z' & Hnew & _). rewrite Hnew in Ho. cbn [bind] in Ho. injection Ho as <- <- <-.
    rewrite len_snoc. lia.
  - destruct (keqb k q); [injection Ho as <- <- <-; cbn; lia|].
    rewrite (get_s_eq _ _ _ H7) in Ho. cbn [bind fst] in Ho. destruct (keqb (s_key s) q); [|discriminate].
    cbn [hs_new alloc others noise quiet] in Ho. injection Ho as <- <- <-. rewrite len_snoc. cbn. lia.
Qed.

Lemma next_flag d (q : Q) f f' : flag_for d (hashk q) f -> flag_next f = Ret (Some f') -> flag_for (d + 1) (hashk q) f'.
Proof.
  intros (Hh & Hd & _) H. unfold flag_next in H. rewrite Hh, Hd in H.
  destruct (N.lt_ge_cases (off (d + 1)) hbits) as [Hlt|Hge].
  - rewrite flag_at_ok in H by exact Hlt. injection H as <-. apply flag_for_at, Hlt.
  - unfold flag_new_at_depth in H. destruct (_ <=? _); [discriminate|].
    apply bind_ret in H. destruct H as (s & _ & H). apply bind_ret in H. destruct H as (b & _ & H). injection H as <-.
    repeat split. cbn. lia.
Qed.

Lemma leaf_rivals (q : Q) hh (l : lnode K V) : lwf hh l -> lookup (cls q) (l_visit l) <> None -> rivals q (l_visit l) = length (l_visit l).
Proof.
  intros (_ & _ & HH) Hf. destruct (lookup (cls q) (l_visit l)) as [e|] eqn:He; [|contradiction].
  destruct (lookup_in _ _ _ He) as (Hin & Hc).
  unfold rivals. rewrite filter_all; [reflexivity|]. intros x Hx. apply N.eqb_eq.
  pose proof (HH x Hx) as H1. pose proof (HH e Hin) as H2. unfold ecls, hashk in *. rewrite <- Hc. congruence.
Qed.

Lemma hs_insert_len d h a s (q : Q) k v f replace n' p prev h' : rep_s h a s -> pre d (hashk (s_key s)) = pre d (hashk q) ->
  (forall f0, f = Some f0 -> flag_for d (hashk q) f0) ->
  hs_insert h a q k v f replace = Ret (HInserted n' p prev, h') ->
  exists b, levels d b /\ (length h' <= length h + b + 1)%nat.
Proof.
  intros Hs Hp Hf H. unfold hs_insert in H. rewrite (get_s_eq _ _ _ Hs) in H. cbn [bind fst] in H.
  destruct (keqb (s_key s) q).
  - destruct replace; [|discriminate]. cbn [hs_new alloc others noise quiet] in H. injection H as _ _ _ <-. rewrite len_snoc.
    exists 0%nat. split; [left; reflexivity|lia].
  - apply bind_ret in H. destruct H as (f0 & Hf0 & H). destruct f as [f1|]; [|discriminate]. injection Hf0 as ->.
    specialize (Hf f0 eq_refl). pose proof (proj1 Hf) as Hh.
    destruct (hl_lift_len d h (XS a) (NS s) k v f0 (HInserted n' p prev) h' Hs) with (4 := H) as (b & Hb & Hl).
    + rewrite Hh. exact Hp.
    + rewrite Hh. exact Hf.
    + rewrite Hh. apply hashk_lt.
    + exists b. split; [exact Hl|lia].
Qed.

Lemma hl_insert_len d h a hh l fuel (q : Q) k v f replace n' p prev h' : rep_l h a l -> (a < fuel)%nat -> lwf hh l -> pre d hh = pre d (hashk q) ->
  (forall f0, f = Some f0 -> flag_for d (hashk q) f0) ->
  hl_insert fuel h a q k v f replace = Ret (HInserted n' p prev, h') ->
  exists b, levels d b /\ (length h' <= length h + b + Nat.max 1 (rivals q (l_visit l)))%nat.
Proof.
  intros Hs Ha HL Hp Hf H. unfold hl_insert in H.
  pose proof (hl_find_ok h q l a fuel Hs Ha) as Hfind. apply bind_ret in H. destruct H as (r & Hr & H). rewrite Hr in Hfind.
  inversion Hfind as [r0 r' Hrel E1 E2| |]; subst. rewrite l_find_ok in Hrel.
  destruct (lookup (cls q) (l_visit l)) as [e|] eqn:He; inversion Hrel as [c e0 Hc|]; subst.
  - destruct replace; [|discriminate]. apply bind_ret in H. destruct H as ([r h1] & Hr1 & H).
    pose proof (hl_remove_from_ok h q l a fuel Hs Ha) as Hrem. rewrite Hr1 in Hrem. inversion Hrem as [r0 r' Hrel2 E1 E3| |]; subst.
    destruct r as [|x c2]; [discriminate|]. destruct Hrel2 as (t & k' & v' & _ & _ & Ht & _).
    destruct (hl_new_ok h1 k v x t Ht) as (z' & Hnew & _). rewrite Hnew in H. cbn [bind] in H. injection H as _ _ _ <-.
    pose proof (hl_remove_from_len h q l _ _ _ _ _ Hs Ha Hr1) as Hlen.
    exists 0%nat. split; [left; reflexivity|]. rewrite len_snoc. rewrite (leaf_rivals q hh l HL); [lia|congruence].
  - apply bind_ret in H. destruct H as (f0 & Hf0 & H). destruct f as [f1|]; [|discriminate]. injection Hf0 as ->.
    specialize (Hf f0 eq_refl). pose proof (proj1 Hf) as Hh.
    destruct (hl_lift_len d h (XL a) (NL l) k v f0 (HInserted n' p prev) h' Hs) with (4 := H) as (b & Hb & Hl).
    + rewrite Hh. cbn [next_key]. rewrite <- Hp. f_equal. apply (proj2 (proj2 HL) (l_key l, l_value l)). destruct l; left; reflexivity.
    + rewrite Hh. exact Hf.
    + rewrite Hh. apply hashk_lt.
    + exists b. split; [exact Hl|lia].
Qed.

Lemma rivals_child d bits (values : list (mnode K V)) x i c (q : Q) p : wf d p (MC (BIA bits values x)) -> i < max_ones fw -> getv bits values i = Some c ->
  (rivals q (m_visit c) <= rivals q (m_visit (MC (BIA bits values x))))%nat.
Proof.
  intros HW Hi Hg. destruct (slot_split _ _ _ _ _ _ HW Hi) as (rest & _ & HPs).
  assert (Hok : okv (max_ones fw) bits values) by (inversion HW; assumption).
  specialize (HPs bits values x Hok (fun _ _ => eq_refl)). rewrite Hg in HPs. cbn [ovisit] in HPs.
  pose proof (with_hash_sub (hashk q) _ _ _ HPs) as H. unfold with_hash, lenN in H. unfold rivals. lia.
Qed.

Lemma wf_slot d bits (values : list (mnode K V)) x f (q : Q) c : wf d (pre d (hashk q)) (MC (BIA bits values x)) -> flag_for d (hashk q) f ->
  bat (BIA bits values x) (fl_flag f) = Ok c -> wf (d + 1) (pre (d + 1) (hashk q)) c /\ off d < hbits /\
    (rivals q (m_visit c) <= rivals q (m_visit (MC (BIA bits values x))))%nat.
Proof.
  intros HW Hf Hb. inversion HW as [| |d0 p0 b0 v0 x0 Ho Hp Hok Hne Hx Hch]; subst.
  rewrite (proj2 (proj2 Hf)) in Hb by assumption. rewrite (bat_get fw) in Hb by exact Hok. unfold get in Hb. cbn [bbits bvalues] in Hb.
  destruct (getv bits values (idx d (hashk q))) as [c'|] eqn:Hg; [|discriminate]. injection Hb as ->.
  split; [rewrite pre_succ; apply (Hch _ _ Hg)|]. split; [exact Ho|].
  eapply rivals_child; [exact HW|apply idx_lt|exact Hg].
Qed.

Lemma h_insert_len (q : Q) k v replace fuel : forall d h n t f n' p prev h', rep h n t -> (addr_of n < fuel)%nat ->
  wf d (pre d (hashk q)) t -> (forall f0, f = Some f0 -> flag_for d (hashk q) f0) ->
  h_insert fuel h n q k v f replace = Ret (HInserted n' p prev, h') ->
  exists b, levels d b /\ (length h' <= length h + b + Nat.max 1 (rivals q (m_visit t)))%nat.
Proof.
  induction fuel as [|fuel IH]; intros d h n t f n' p prev h' H Hf HW Hfl Ho; [lia|]. destruct H as [a bits hs ts x Hn HF Hlt|a l H|a s H].
  2:{ inversion HW as [|d0 p0 l0 hh HL Hp|]; subst. apply (hl_insert_len d h a hh l (S fuel) q k v f replace n' p prev h'); assumption. }
  2:{ inversion HW as [d0 p0 s0 Hp| |]; subst. destruct (hs_insert_len d h a s q k v f replace n' p prev h') as (b & Hb & Hl); try assumption.
      exists b. split; [exact Hb|lia]. }
  cbn [h_insert] in Ho. rewrite (get_c_eq _ _ _ Hn) in Ho. cbn [bind addr_of] in *.
  apply bind_ret in Ho. destruct Ho as (f' & Hf' & Ho). destruct f as [f1|]; [|discriminate]. injection Hf' as ->. specialize (Hfl f' eq_refl).
  pose proof (child_rel h a bits hs ts x (fl_flag f') Hn HF Hlt) as Hch.
  destruct (bat (BIA bits hs x) (fl_flag f')) as [c|e]; inversion Hch as [c0 t (Hc & Hlc & Hin) E1 E2|]; subst.
  - symmetry in E2. destruct (wf_slot _ _ _ _ _ _ _ HW Hfl E2) as (HWc & Hoff & Hriv).
    apply bind_ret in Ho. destruct Ho as (nx & Hnx & Ho).
    assert (Hfl' : forall f0, nx = Some f0 -> flag_for (d + 1) (hashk q) f0).
    { intros f0 ->. eapply next_flag; eassumption. }
    apply bind_ret in Ho. destruct Ho as ([r h1] & Hr & Ho).
    assert (Hgoal : forall n1 p1 prev1, r = HInserted n1 p1 prev1 ->
      exists b, levels (d + 1) b /\ (length h1 <= length h + b + Nat.max 1 (rivals q (m_visit t)))%nat).
    { intros n1 p1 prev1 ->. destruct Hc as [b bits' hs' ts' x' Hn' HF' Hlt'|b l H|b s H].
      - eapply (IH (d + 1) h (HC b)); [econstructor; eassumption|lia|exact HWc|exact Hfl'|exact Hr].
      - inversion HWc as [|d0 p0 l0 hh HL Hp|]; subst. eapply (hl_insert_len (d + 1) h b hh l fuel); try eassumption. cbn in Hlc. lia.
      - inversion HWc as [d0 p0 s0 Hp| |]; subst. destruct (hs_insert_len (d + 1) h b s q k v nx replace n1 p1 prev1 h1) as (b' & Hb & Hl); try assumption.
        exists b'. split; [exact Hb|lia]. }
    destruct r as [|n1 p1 prev1]; [discriminate|]. destruct (Hgoal _ _ _ eq_refl) as (b & Hb & Hl).
    apply bind_ret in Ho. destruct Ho as (size & _ & Ho). apply bind_ret in Ho. destruct Ho as (b2 & _ & Ho).
    cbn [alloc others noise quiet] in Ho. injection Ho as _ _ _ <-. exists (S b). split; [apply levels_S; assumption|]. rewrite len_snoc. lia.
  - cbn [hs_new alloc others noise quiet] in Ho. apply bind_ret in Ho. destruct Ho as (b2 & _ & Ho). injection Ho as _ _ _ <-.
    exists 1%nat. rewrite !len_snoc. split; [|lia]. apply levels_S; [inversion HW; assumption|left; reflexivity].
Qed.

Lemma h_remove_len (q : Q) fuel : forall d h n t f n' p h', rep h n t -> (addr_of n < fuel)%nat ->
  wf d (pre d (hashk q)) t -> (forall f0, f = Some f0 -> flag_for d (hashk q) f0) ->
  h_remove fuel h n q f = Ret (HRemoved n' p, h') ->
  exists b, levels d b /\ (length h' <= length h + b + rivals q (m_visit t))%nat.
Proof.
  induction fuel as [|fuel IH]; intros d h n t f n' p h' H Hf HW Hfl Ho; [lia|]. destruct H as [a bits hs ts x Hn HF Hlt|a l H|a s H]; cbn [h_remove] in Ho.
  - rewrite (get_c_eq _ _ _ Hn) in Ho. cbn [bind addr_of] in *.
    apply bind_ret in Ho. destruct Ho as (f' & Hf' & Ho). destruct f as [f1|]; [|discriminate]. injection Hf' as ->. specialize (Hfl f' eq_refl).
    pose proof (child_rel h a bits hs ts x (fl_flag f') Hn HF Hlt) as Hch.
    destruct (bat (BIA bits hs x) (fl_flag f')) as [c|e]; inversion Hch as [c0 t (Hc & Hlc & Hin) E1 E2|]; subst; [|discriminate].
    symmetry in E2. destruct (wf_slot _ _ _ _ _ _ _ HW Hfl E2) as (HWc & Hoff & Hriv).
    apply bind_ret in Ho. destruct Ho as (nx & Hnx & Ho).
    assert (Hfl' : forall f0, nx = Some f0 -> flag_for (d + 1) (hashk q) f0).
    { intros f0 ->. eapply next_flag; eassumption. }
    apply bind_ret in Ho. destruct Ho as ([r h1] & Hr & Ho).
    destruct r as [|n1 p1|p1]; [discriminate| |].
    + destruct (IH (d + 1) h c t nx n1 p1 h1 Hc ltac:(lia) HWc Hfl' Hr) as (b & Hb & Hl).
      apply bind_ret in Ho. destruct Ho as (z & _ & Ho). destruct (z =? 0); [discriminate|].
      apply bind_ret in Ho. destruct Ho as (size & _ & Ho). apply bind_ret in Ho. destruct Ho as (b2 & _ & Ho).
      cbn [alloc others noise quiet] in Ho. injection Ho as _ _ <-. exists (S b). split; [apply levels_S; assumption|]. rewrite len_snoc. lia.
    + pose proof (h_remove_ok q fuel h c t nx Hc ltac:(lia)) as Hrel. rewrite Hr in Hrel. inversion Hrel as [r0 r' Hrr E3 E4| |]; subst.
      destruct Hrr as (-> & _). destruct (_ =? 1); [discriminate|].
      apply bind_ret in Ho. destruct Ho as (size & _ & Ho). apply bind_ret in Ho. destruct Ho as (b2 & _ & Ho).
      cbn [alloc others noise quiet] in Ho. injection Ho as _ _ <-. exists 1%nat. split; [apply levels_S; [exact Hoff|left; reflexivity]|]. rewrite len_snoc. lia.
  - apply bind_ret in Ho. destruct Ho as ([r h1] & Hr & Ho). destruct r as [|y c]; [discriminate|]. injection Ho as _ _ <-.
    inversion HW as [|d0 p0 l0 hh HL Hp|]; subst.
    pose proof (hl_remove_from_len h q l a (S fuel) y c h1 H Hf Hr) as Hlen.
    pose proof (hl_remove_from_ok h q l a (S fuel) H Hf) as Hrel.
    exists 0%nat. split; [left; reflexivity|]. cbn [m_visit].
    rewrite (leaf_rivals q hh l HL); [lia|]. intros Hnone.
    assert (Hlr : l_remove_from l q = LRNotFound).
    { pose proof (l_remove_from_ok l q) as HR. rewrite Hnone in HR.
      destruct (l_remove_from l q); [reflexivity|destruct HR; discriminate|destruct HR; discriminate]. }
    change (hl_remove_from (S fuel) h a q = Ret (HLRemoved y c, h1)) in Hr. rewrite Hr, Hlr in Hrel.
    inversion Hrel as [r0 r' Hrr E3 E4| |]; subst. destruct Hrr as (t & k & v & E5 & _). destruct t; discriminate.
  - rewrite (get_s_eq _ _ _ H) in Ho. cbn [bind fst] in Ho. destruct (keqb (s_key s) q); discriminate.
Qed.

(** The number of branches on a path. *)
Lemma levels_0 b : levels 0 b -> N.of_nat b * log_b fw < max_ones hw + log_b fw.
Proof.
  intros Hb. pose proof (log_b_pos fw). pose proof (max_ones_ge hw). destruct Hb as [->|Hb]; [unfold hbits in *; cbn; lia|].
  unfold off, hbits in *. destruct b as [|b]; [cbn; lia|].
  replace (0 + N.of_nat (S b) - 1) with (N.of_nat b) in Hb by lia. rewrite Nat2N.inj_succ, N.mul_succ_l. lia.
Qed.

Theorem insert_cells into h n t (q : Q) v replace r h' : reachable t -> rep h n t ->
  hm_insert into h n q v replace = Ret (r, h') ->
  match r with
  | Ok _ => exists b, N.of_nat b * log_b fw < max_ones hw + log_b fw /\
      (length h' <= length h + b + Nat.max 1 (rivals q (map_visit t)))%nat
  | Err _ => h' = h
  end.
Proof.
  intros HR Ht Ho. pose proof (hm_insert_ok into h n t q v replace Ht) as Hrel. rewrite Ho in Hrel.
  inversion Hrel as [r0 r' Hrr E1 E2| |]; subst. destruct r as [[[n' a] prev]|a].
  - unfold hm_insert in Ho. rewrite flag_new_ok in Ho. cbn [bind] in Ho. apply bind_ret in Ho. destruct Ho as ([r1 h1] & Hr & Ho).
    destruct r1 as [|n1 a1 prev1]; [discriminate|]. injection Ho as <- <- <- <-.
    edestruct (h_insert_len q (into q) v replace (enough h) 0 h n t) as (b & Hb & Hl); [exact Ht|exact (enough_ok _ _ _ Ht)| | |exact Hr|].
    + rewrite pre_0. apply reachable_mwf. exact HR.
    + intros f0 [= <-]. apply flag_for_0.
    + exists b. split; [apply levels_0, Hb|exact Hl].
  - destruct r'; [contradiction|]. apply Hrr.
Qed.

Theorem remove_cells h n t (q : Q) r h' : reachable t -> rep h n t ->
  hm_remove h n q = Ret (r, h') ->
  match r with
  | Ok _ => exists b, N.of_nat b * log_b fw < max_ones hw + log_b fw /\
      (length h' <= length h + b + Nat.max 1 (rivals q (map_visit t)))%nat
  | Err _ => h' = h
  end.
Proof.
  intros HR Ht Ho. pose proof (hm_remove_ok h n t q Ht) as Hrel. rewrite Ho in Hrel.
  inversion Hrel as [r0 r' Hrr E1 E2| |]; subst. destruct r as [[n' a]|a].
  - unfold hm_remove in Ho. rewrite flag_new_ok in Ho. cbn [bind] in Ho. apply bind_ret in Ho. destruct Ho as ([r1 h1] & Hr & Ho).
    destruct r1 as [|n1 a1|a1]; [discriminate| |].
    + injection Ho as <- <- <-.
      edestruct (h_remove_len q (enough h) 0 h n t) as (b & Hb & Hl); [exact Ht|exact (enough_ok _ _ _ Ht)| | |exact Hr|].
      * rewrite pre_0. apply reachable_mwf. exact HR.
      * intros f0 [= <-]. apply flag_for_0.
      * exists b. split; [apply levels_0, Hb|]. unfold map_visit. lia.
    + pose proof (fun f => h_remove_ok q (enough h) h n t f Ht (enough_ok _ _ _ Ht)) as Hrel2. specialize (Hrel2 (Some (mkFlag (hashk q) 0 (2 ^ idx 0 (hashk q))))). rewrite Hr in Hrel2.
      inversion Hrel2 as [r0 r2 Hrr2 E3 E4| |]; subst. destruct Hrr2 as (-> & _).
      cbn [hm_new alloc others noise quiet] in Ho. injection Ho as <- <- <-. exists 0%nat. split; [|rewrite len_snoc; lia].
      apply levels_0. left. reflexivity.
  - destruct r'; [contradiction|]. apply Hrr.
Qed.

End Query.
End HeapCost.
