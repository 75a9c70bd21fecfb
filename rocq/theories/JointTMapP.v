(** transform_with_transformed on reachable maps, seen through find, size and visit. *)
From Coq Require Import NArith Arith List Bool Lia ZifyBool ZifyN ZifyNat Permutation.
From Verif Require Import Base Words WordsP Flag FlagP Bia BiaP Node Spec SpecP Inv NodeP InsertP TrieP Api ApiP
  Trans Transform LoopP SpecT TransformP TransApiP Joint SpecJ JoinP JointP JointMP JointLeafP JointNodeP JointApiP
  JointT JointTLeafP JointTP JointTApiP Reach ReachP MapP TransMapP JointMapP.
Import ListNotations.
Open Scope N_scope.

Section TT.
Context {E : Env} {K V R : Type} {KK : Key K}.
Context (rdef : R) (rd : R -> R -> R) (st : strategy).

Lemma lookup_In (m : trie K V) e : mwf m -> In e (map_visit m) -> lookup (ecls e) (map_visit m) = Some e.
Proof. intros HW He. apply in_lookup; [apply mwf_uniq; assumption|assumption]. Qed.

Theorem tt_about both lop rop (m right : trie K V) m' r o : reachable m -> reachable right ->
  tame both lop rop (map_visit m) (map_visit right) ->
  map_tt rdef rd st both lop rop m right = Ret (m', r, o) ->
  (exists fB, is_merge fB (fun e => t_to (tcall lop e) e) (fun e' => t_to (tcall rop e') e') m right m' /\
     forall e e', In e (map_visit m) -> In e' (map_visit right) -> cls (fst e) = cls (fst e') -> b_about both e e' (fB e e')) /\
  (o = Self -> m' = m) /\ (o = Right -> m' = right).
Proof.
  intros HR HRr HD HT.
  pose proof (map_tt_ok rdef rd st both lop rop m right (reachable_mwf _ HR) (reachable_mwf _ HRr) HD) as H.
  rewrite HT in H. destruct H as [(fB & Hb & HM) (Ho & Ho' & _)]. split; [|auto]. exists fB.
  assert (HR' : reachable m') by (eapply (reach_tt K V KK R rdef rd st both lop rop m right); eassumption).
  pose proof (merge_is rdef rd _ _ _ _ m right m' r (reachable_mwf _ HR) (reachable_mwf _ HRr) HR' HM) as H.
  split.
  - exact H.
  - intros e e' He He' Hc. apply Hb; [apply lookup_In; auto using reachable_mwf|].
    unfold ecls. rewrite Hc. apply lookup_In; auto using reachable_mwf.
Qed.

Theorem tt_exact both lop rop (m right : trie K V) m' r o : reachable m -> reachable right ->
  tame both lop rop (map_visit m) (map_visit right) -> ~ one_sided both ->
  map_tt rdef rd st both lop rop m right = Ret (m', r, o) ->
  (exists fB, is_merge fB (fun e => t_to (tcall lop e) e) (fun e' => t_to (tcall rop e') e') m right m' /\
     forall e e', In e (map_visit m) -> In e' (map_visit right) -> cls (fst e) = cls (fst e') -> b_to (jcall both e e') e e' (fB e e')) /\
  (o = Self -> m' = m) /\ (o = Right -> m' = right).
Proof.
  intros HR HRr HD Hn HT. destruct (tt_about both lop rop m right m' r o HR HRr HD HT) as [(fB & HM & HB) Ho]. split; [|assumption].
  exists fB. split; [assumption|]. intros e e' H1 H2 H3. destruct (HB e e' H1 H2 H3) as [H|[H _]]; [assumption|contradiction].
Qed.

Theorem tt_one_sided both lop rop (m right : trie K V) m' r o : reachable m -> reachable right ->
  tame both lop rop (map_visit m) (map_visit right) -> one_sided both ->
  map_tt rdef rd st both lop rop m right = Ret (m', r, o) ->
  (exists fB, is_merge fB (fun e => t_to (tcall lop e) e) (fun e' => t_to (tcall rop e') e') m right m' /\
     forall e e', In e (map_visit m) -> In e' (map_visit right) -> cls (fst e) = cls (fst e') -> fB e e' = Some e \/ fB e e' = Some e') /\
  (o = Self -> m' = m) /\ (o = Right -> m' = right).
Proof.
  intros HR HRr HD Hn HT. destruct (tt_about both lop rop m right m' r o HR HRr HD HT) as [(fB & HM & HB) Ho]. split; [|assumption].
  exists fB. split; [assumption|]. intros e e' H1 H2 H3. destruct (HB e e' H1 H2 H3) as [H|[_ H]]; [|assumption].
  destruct both; cbn in Hn, H; try contradiction; auto.
Qed.

Lemma NoDup_map_filter {A B} (f : A -> B) p (l : list A) : NoDup (map f l) -> NoDup (map f (filter p l)).
Proof.
  induction l as [|a l IH]; cbn; [auto|]. inversion 1 as [|x xs Hn Hd]; subst. destruct (p a); cbn; auto.
  constructor; auto. intros Hi. apply Hn. apply in_map_iff in Hi. destruct Hi as (y & Hy & Hi). apply filter_In in Hi.
  rewrite <- Hy. apply in_map. apply Hi.
Qed.

Lemma cnt_free (l : list (K * V)) : uniq l ->
  (forall e e', In e l -> In e' l -> hash (cls (fst e)) = hash (cls (fst e')) -> cls (fst e) = cls (fst e')) ->
  forall h, (cnt h l <= 1)%nat.
Proof.
  intros HU HF h. unfold cnt. set (l' := filter (fun e => hash (ecls e) =? h) l).
  assert (HU' : NoDup (map ecls l')) by (apply NoDup_map_filter; exact HU).
  assert (Hin : forall e, In e l' -> In e l /\ hash (ecls e) = h).
  { intros e He. apply filter_In in He. destruct He as [He Hh]. apply N.eqb_eq in Hh. auto. }
  destruct l' as [|a [|b t]]; cbn [length]; [lia|lia|]. exfalso.
  destruct (Hin a (or_introl eq_refl)) as [Ha Ha']. destruct (Hin b (or_intror (or_introl eq_refl))) as [Hb Hb'].
  cbn [map] in HU'. inversion HU' as [|x xs Hn _]; subst. apply Hn. left. symmetry. apply HF; try assumption. unfold ecls in *. congruence.
Qed.

Theorem tt_collision_free both lop rop (m right : trie K V) : reachable m -> reachable right ->
  (forall e e', In e (map_visit m) -> In e' (map_visit m) -> hash (cls (fst e)) = hash (cls (fst e')) -> cls (fst e) = cls (fst e')) ->
  (forall e e', In e (map_visit right) -> In e' (map_visit right) -> hash (cls (fst e)) = hash (cls (fst e')) -> cls (fst e) = cls (fst e')) ->
  ~ one_sided both ->
  exists m' r o, map_tt rdef rd st both lop rop m right = Ret (m', r, o) /\
    (exists fB, is_merge fB (fun e => t_to (tcall lop e) e) (fun e' => t_to (tcall rop e') e') m right m' /\
     forall e e', In e (map_visit m) -> In e' (map_visit right) -> cls (fst e) = cls (fst e') -> b_to (jcall both e e') e e' (fB e e')).
Proof.
  intros HR HRr HF HFr Hn. pose proof (reachable_mwf _ HR) as HW. pose proof (reachable_mwf _ HRr) as HWr.
  assert (HD : tame both lop rop (map_visit m) (map_visit right)) by (apply tame_apart; assumption).
  pose proof (map_tt_ok rdef rd st both lop rop m right HW HWr HD) as H.
  destruct (map_tt rdef rd st both lop rop m right) as [[[m' r] o]| |] eqn:HT; [|contradiction|].
  - exists m', r, o. split; [reflexivity|]. apply (tt_exact both lop rop m right m' r o HR HRr HD Hn HT).
  - destruct H as [h Hh]. exfalso. pose proof (cnt_free _ (mwf_uniq _ HW) HF h). unfold hi_mm in Hh.
    pose proof (cnt_free _ (mwf_uniq _ HWr) HFr h). lia.
Qed.

Theorem tt_reduction both f h (m right : trie K V) m' r o : reachable m -> reachable right ->
  tame both (TGeneric f) (TGeneric h) (map_visit m) (map_visit right) ->
  monoid rdef rd -> (forall a b, rd a b = rd b a) ->
  map_tt rdef rd st both (TGeneric f) (TGeneric h) m right = Ret (m', r, o) ->
  r = fold_right rd rdef (merged_reds (fun e e' => b_red (jcall both e e')) (fun e => t_red (f e)) (fun e' => t_red (h e'))
        (map_visit m) (map_visit right)).
Proof.
  intros HR HRr HD HM HC HT.
  pose proof (map_tt_ok rdef rd st both (TGeneric f) (TGeneric h) m right (reachable_mwf _ HR) (reachable_mwf _ HRr) HD) as H.
  rewrite HT in H. destruct H as [(fB & _ & _ & _ & _ & Hr) _]. apply Hr; [split; assumption|split; exact I].
Qed.

Theorem tt_returns both lop rop (m right : trie K V) : reachable m -> reachable right ->
  tame both lop rop (map_visit m) (map_visit right) ->
  ((forall h, (cnt h (map_visit m) <= 1 \/ cnt h (map_visit right) <= 1 \/
               cnt h (map_visit m) = 2 /\ cnt h (map_visit right) = 2)%nat) ->
     exists m' r o, map_tt rdef rd st both lop rop m right = Ret (m', r, o)) /\
  (tt_short (K := K) (V := V) both lop rop = None ->
   (exists h, (3 <= cnt h (map_visit m))%nat /\ (3 <= cnt h (map_visit right))%nat) ->
     map_tt rdef rd st both lop rop m right = Diverge) /\
  map_tt rdef rd st both lop rop m right <> Panic.
Proof.
  intros HR HRr HD. pose proof (map_tt_ok rdef rd st both lop rop m right (reachable_mwf _ HR) (reachable_mwf _ HRr) HD) as H.
  destruct (map_tt rdef rd st both lop rop m right) as [[[m' r] o]| |]; [|contradiction|].
  - destruct H as (_ & _ & _ & H). split; [eauto|]. split; [|discriminate]. intros Hs [h Hh]. exfalso. apply H. exists h.
    split; [exact Hs|exact Hh].
  - split; [|split; [reflexivity|discriminate]]. intros Hn. exfalso. destruct H as [h Hh]. specialize (Hn h). unfold hi_mm in Hh. lia.
Qed.

Theorem tt_keys both lop rop (m right : trie K V) m' r o : reachable m -> reachable right ->
  tame both lop rop (map_visit m) (map_visit right) ->
  map_tt rdef rd st both lop rop m right = Ret (m', r, o) ->
  forall x, In x (map_visit m') ->
    (exists e, In e (map_visit m) /\ fst x = fst e) \/ (exists e', In e' (map_visit right) /\ fst x = fst e').
Proof.
  intros HR HRr HD HT x Hx. destruct (tt_about both lop rop m right m' r o HR HRr HD HT) as [(fB & HM & HB) _].
  destruct (merge_source _ _ _ _ _ _ HM x Hx) as [(e & e' & H1 & H2 & H3 & H4)|[(e & H1 & _ & H4)|(e & H1 & _ & H4)]].
  - pose proof (HB e e' H1 H2 H3) as H. rewrite H4 in H.
    assert (Hx' : fst x = fst e \/ fst x = fst e').
    { destruct H as [H|[_ [[= ->]|[= ->]]]]; auto. destruct (jcall both e e'); cbn [b_to] in H;
        repeat match goal with H : _ \/ _ |- _ => destruct H end; try discriminate;
        match goal with H : _ = _ |- _ => injection H as -> end; auto. }
    destruct Hx'; eauto.
  - left. exists e. apply t_to_key in H4. auto.
  - right. exists e. apply t_to_key in H4. auto.
Qed.

Theorem tt_all_dropped both lop rop (m right : trie K V) m' r o : reachable m -> reachable right ->
  (forall e e', In e (map_visit m) -> In e' (map_visit right) -> cls (fst e) = cls (fst e') -> exists x, jcall both e e' = BDropped x) ->
  (forall e, In e (map_visit m) -> exists x, tcall lop e = VDropped x) ->
  (forall e, In e (map_visit right) -> exists x, tcall rop e = VDropped x) ->
  map_tt rdef rd st both lop rop m right = Ret (m', r, o) -> m' = map_new.
Proof.
  intros HR HRr HB HL HRR HT.
  assert (Hc : forall h e e', common h (map_visit m) (map_visit right) e e' -> exists x, jcall both e e' = BDropped x).
  { intros h e e' (_ & H1 & H2). apply lookup_in in H1. apply lookup_in in H2. destruct H1 as [H1 _], H2 as [H2 H3].
    apply HB; [assumption|assumption|]. exact (eq_sym H3). }
  assert (Hl : forall h e, only h (map_visit m) (map_visit right) e -> ~ stays (tcall lop e)).
  { intros h e (_ & H1 & _) H2. apply lookup_in in H1. destruct (HL e (proj1 H1)) as [x Hx]. rewrite Hx in H2. exact H2. }
  assert (Hr : forall h e, only h (map_visit right) (map_visit m) e -> ~ stays (tcall rop e)).
  { intros h e (_ & H1 & _) H2. apply lookup_in in H1. destruct (HRR e (proj1 H1)) as [x Hx]. rewrite Hx in H2. exact H2. }
  assert (HD : tame both lop rop (map_visit m) (map_visit right)).
  { split; intros h _.
    - split; [|intros _; split].
      + intros _ e e' H Hk. destruct (Hc h e e' H) as [x Hx]. rewrite Hx in Hk. exact Hk.
      + intros e e' e1 H Hk. destruct (Hc h e e' H) as [x Hx]. rewrite Hx in Hk. destruct Hk.
      + intros e' e1 e2 H Hs. destruct (Hr h e' H Hs).
    - assert (Hc' : forall e e', common h (map_visit right) (map_visit m) e e' -> ~ keeps_right (jcall (jflip both) e e')).
      { intros e e' (Hh & H1 & H2) Hk.
        assert (He : ecls e' = ecls e) by (apply lookup_in in H2; apply H2).
        destruct (Hc h e' e) as [x Hx].
        { unfold common. rewrite He. auto. }
        destruct both as [f b| | | |]; cbn in *; try contradiction; try discriminate.
        destruct b; cbn in *; [destruct (f e e')|rewrite Hx in Hk]; cbn in *; try discriminate; exact Hk. }
      split; [|intros _; split].
      + intros _ e e' H Hk. exact (Hc' e e' H Hk).
      + intros e e' e1 H Hk. destruct (Hc' e e' H Hk).
      + intros e' e1 e2 H Hs. destruct (Hl h e' H Hs). }
  destruct (tt_about both lop rop m right m' r o HR HRr HD HT) as [(fB & HM & HB') _].
  refine (merge_all_dropped _ _ _ _ _ _ HM _ _ _).
  - intros e e' H1 H2 H3. pose proof (HB' e e' H1 H2 H3) as H. destruct (HB e e' H1 H2 H3) as [x Hx].
    destruct H as [H|[H _]]; [rewrite Hx in H; exact H|]. destruct both; cbn in H, Hx; contradiction || discriminate.
  - intros e H1. destruct (HL e H1) as [x ->]. reflexivity.
  - intros e H1. destruct (HRR e H1) as [x ->]. reflexivity.
Qed.

(** * Set algebra *)

Definition has {Q} {KQ : Key Q} (m : trie K V) (q : Q) : bool :=
  match map_find m q with Ret (Ok _) => true | _ => false end.

(** The number of keys two maps share. *)
Definition shared (m right : trie K V) : N := N.of_nat (length (filter (fun e => has right (fst e)) (map_visit m))).

Lemma has_lookup {Q} {KQ : Key Q} (m : trie K V) (q : Q) : mwf m ->
  has m q = match lookup (cls q) (map_visit m) with Some _ => true | None => false end.
Proof. intros HW. unfold has. rewrite map_find_ok by assumption. destruct (lookup _ _); reflexivity. Qed.

Definition matched (lr : list (K * V)) (e : K * V) : bool := match lookup (ecls e) lr with Some _ => true | None => false end.

Lemma matched_length (ln lr : list (K * V)) : uniq ln -> uniq lr -> length (filter (matched lr) ln) = length (filter (matched ln) lr).
Proof.
  intros Hn Hr. rewrite <- (map_length ecls (filter (matched lr) ln)), <- (map_length ecls (filter (matched ln) lr)).
  apply Permutation_length. apply NoDup_Permutation; [apply NoDup_map_filter; exact Hn|apply NoDup_map_filter; exact Hr|].
  assert (H : forall a b : list (K * V), uniq a -> forall c, In c (map ecls (filter (matched b) a)) -> In c (map ecls (filter (matched a) b))).
  { intros a b Ha c Hc. apply in_map_iff in Hc. destruct Hc as (e & <- & He). apply filter_In in He. destruct He as [He Hm].
    unfold matched in Hm. destruct (lookup (ecls e) b) as [e'|] eqn:Hl; [|discriminate]. apply lookup_in in Hl. destruct Hl as [Hi Hc].
    rewrite <- Hc. apply in_map. apply filter_In. split; [assumption|]. unfold matched. rewrite Hc, (in_lookup a e Ha He). reflexivity. }
  intros c. split; apply H; assumption.
Qed.

Lemma filter_split {A} (p : A -> bool) (l : list A) : (length l = length (filter p l) + length (filter (fun a => negb (p a)) l))%nat.
Proof. induction l as [|a l IH]; cbn; [reflexivity|]. destruct (p a); cbn; lia. Qed.

Lemma shared_sym (m right : trie K V) : mwf m -> mwf right -> shared m right = shared right m.
Proof.
  intros HW HWr. unfold shared.
  rewrite (filter_ext (fun e => has right (fst e)) (matched (map_visit right))) by (intros e; apply has_lookup; assumption).
  rewrite (filter_ext (fun e => has m (fst e)) (matched (map_visit m))) by (intros e; apply has_lookup; assumption).
  f_equal. apply matched_length; apply mwf_uniq; assumption.
Qed.

Lemma flat_const {A B} (f : A -> option B) (b : bool) (l : list A) : (forall a, In a l -> f a = None <-> b = false) ->
  length (flat_map (fun a => opt (f a)) l) = if b then length l else O.
Proof.
  induction l as [|a l IH]; intros H; [destruct b; reflexivity|]. cbn [flat_map length]. rewrite app_length, IH by (intros; apply H; right; assumption).
  pose proof (H a (or_introl eq_refl)) as Ha. destruct (f a), b; cbn [opt length]; try reflexivity; destruct Ha as [H1 H2];
    (discriminate (H1 eq_refl) || discriminate (H2 eq_refl)).
Qed.

(** Merges that decide by side only. *)
Lemma merge_sided (kb kl kr : bool) fB fL fR (m right m' : trie K V) : reachable m -> reachable right ->
  is_merge fB fL fR m right m' ->
  (forall e e', In e (map_visit m) -> In e' (map_visit right) -> cls (fst e) = cls (fst e') -> (fB e e' = None <-> kb = false)) ->
  (forall e, In e (map_visit m) -> (fL e = None <-> kl = false)) -> (forall e', In e' (map_visit right) -> (fR e' = None <-> kr = false)) ->
  (forall Q (KQ : Key Q) (q : Q), has m' q = if has m q then (if has right q then kb else kl) else has right q && kr) /\
  map_size m' = (if kb then shared m right else 0) + (if kl then map_size m - shared m right else 0) +
                (if kr then map_size right - shared m right else 0) /\
  shared m right <= map_size m /\ shared m right <= map_size right.
Proof.
  intros HR HRr HM HB HL HRR. pose proof (reachable_mwf _ HR) as HW. pose proof (reachable_mwf _ HRr) as HWr. split.
  - intros Q KQ q. unfold has at 1. rewrite (im_find _ _ _ _ _ _ HM). rewrite !has_lookup, !map_find_ok by assumption. unfold jfound.
    destruct (lookup (cls q) (map_visit m)) as [e|] eqn:He, (lookup (cls q) (map_visit right)) as [e'|] eqn:He'; cbn [find_res andb];
      repeat match goal with H : lookup _ _ = Some _ |- _ => apply lookup_in in H; destruct H end.
    + pose proof (HB e e') as H'. destruct (fB e e'), kb; try reflexivity; destruct H' as [H1' H2']; try assumption; unfold ecls in *;
        try congruence; (discriminate (H1' eq_refl) || discriminate (H2' eq_refl)).
    + pose proof (HL e) as H'. destruct (fL e), kl; try reflexivity; destruct H' as [H1' H2']; try assumption;
        (discriminate (H1' eq_refl) || discriminate (H2' eq_refl)).
    + pose proof (HRR e') as H'. destruct (fR e'), kr; try reflexivity; destruct H' as [H1' H2']; try assumption;
        (discriminate (H1' eq_refl) || discriminate (H2' eq_refl)).
    + reflexivity.
  - rewrite (im_size _ _ _ _ _ _ HM). unfold merged_entries, merge. rewrite app_length.
    pose proof (shared_sym m right HW HWr) as Hs. unfold shared in *.
    rewrite (filter_ext (fun e => has right (fst e)) (matched (map_visit right))) in * by (intros e; apply has_lookup; assumption).
    rewrite (filter_ext (fun e => has m (fst e)) (matched (map_visit m))) in * by (intros e; apply has_lookup; assumption).
    rewrite (mwf_size m HW), (mwf_size right HWr). unfold lenN.
    rewrite (flat_const fR kr (filter (unmatched (map_visit m)) (map_visit right))).
    2:{ intros a Ha. apply filter_In in Ha. apply HRR. apply Ha. }
    assert (H : forall l, incl l (map_visit m) -> length (flat_map (fun e => match lookup (ecls e) (map_visit right) with
        | Some e' => opt (fB e e') | None => opt (fL e) end) l) =
      ((if kb then length (filter (matched (map_visit right)) l) else 0) +
       (if kl then length (filter (fun e => negb (matched (map_visit right) e)) l) else 0))%nat).
    { induction l as [|e l IH]; intros Hi; [destruct kb, kl; reflexivity|]. cbn [flat_map filter]. rewrite app_length, IH by (intros x Hx; apply Hi; right; assumption).
      assert (He : In e (map_visit m)) by (apply Hi; left; reflexivity).
      unfold matched at 3 6. destruct (lookup (ecls e) (map_visit right)) as [e'|] eqn:Hl; cbn [negb].
      - apply lookup_in in Hl. destruct Hl as [Hi' Hc]. pose proof (HB e e' He Hi' (eq_sym Hc)) as [H1 H2].
        destruct (fB e e'), kb; cbn [opt length]; try discriminate (H1 eq_refl); try discriminate (H2 eq_refl); destruct kl; lia.
      - pose proof (HL e He) as [H1 H2].
        destruct (fL e), kl; cbn [opt length]; try discriminate (H1 eq_refl); try discriminate (H2 eq_refl); destruct kb; lia. }
    rewrite H by apply incl_refl. clear H.
    pose proof (filter_split (matched (map_visit right)) (map_visit m)) as S1.
    pose proof (filter_split (matched (map_visit m)) (map_visit right)) as S2.
    rewrite (filter_ext (fun e => negb (matched (map_visit m) e)) (unmatched (map_visit m))) in S2
      by (intros e; unfold matched, unmatched; destruct (lookup _ _); reflexivity).
    destruct kb, kl, kr; lia.
Qed.

(** Keep or remove, by side. *)
Definition kj (b : bool) (r : R) : joint_op (K * V) V R := if b then JUnchangedLR r else JRemoved r.
Definition kt (b : bool) (r : R) : transform_op (K * V) V R := if b then TUnchanged r else TRemoved r.

Theorem tt_algebra kb kl kr rb rl rr (m right : trie K V) m' r o : reachable m -> reachable right ->
  map_tt rdef rd st (kj kb rb) (kt kl rl) (kt kr rr) m right = Ret (m', r, o) ->
  reachable m' /\
  (forall Q (KQ : Key Q) (q : Q), has m' q = if has m q then (if has right q then kb else kl) else has right q && kr) /\
  map_size m' = (if kb then shared m right else 0) + (if kl then map_size m - shared m right else 0) +
                (if kr then map_size right - shared m right else 0) /\
  shared m right <= map_size m /\ shared m right <= map_size right /\
  (forall x, In x (map_visit m') -> In x (map_visit m) \/ In x (map_visit right)).
Proof.
  intros HR HRr HT.
  assert (HD : tame (kj kb rb) (kt kl rl) (kt kr rr) (map_visit m) (map_visit right)).
  { apply tame_impartial.
    - intros e e'. destruct kb; exact I.
    - left. destruct kl; [apply steady_unchanged|apply steady_removed].
    - left. destruct kr; [apply steady_unchanged|apply steady_removed]. }
  assert (Hn : ~ one_sided (kj kb rb)) by (destruct kb; intros []).
  destruct (tt_exact _ _ _ m right m' r o HR HRr HD Hn HT) as [(fB & HM & HB) _].
  split; [exact (im_reach _ _ _ _ _ _ HM)|].
  assert (HB' : forall e e', In e (map_visit m) -> In e' (map_visit right) -> cls (fst e) = cls (fst e') -> (fB e e' = None <-> kb = false)).
  { intros e e' H1 H2 H3. pose proof (HB e e' H1 H2 H3) as H. destruct kb; cbn [kj jcall b_to] in H.
    - destruct H as [-> | ->]; split; discriminate.
    - split; auto. }
  assert (HL' : forall e, In e (map_visit m) -> t_to (tcall (kt kl rl) e) e = None <-> kl = false) by (intros e _; destruct kl; split; easy).
  assert (HR' : forall e, In e (map_visit right) -> t_to (tcall (kt kr rr) e) e = None <-> kr = false) by (intros e _; destruct kr; split; easy).
  destruct (merge_sided kb kl kr _ _ _ m right m' HR HRr HM HB' HL' HR') as (Hh & Hs & Ha & Hb).
  split; [exact Hh|]. split; [exact Hs|]. split; [exact Ha|]. split; [exact Hb|].
  intros x Hx. destruct (merge_source _ _ _ _ _ _ HM x Hx) as [(e & e' & H1 & H2 & H3 & H4)|[(e & H1 & _ & H4)|(e & H1 & _ & H4)]].
  - pose proof (HB e e' H1 H2 H3) as H. rewrite H4 in H. destruct kb; cbn [kj jcall b_to] in H; [|discriminate].
    destruct H as [[= ->]|[= ->]]; auto.
  - left. destruct kl; cbn in H4; [|discriminate]. injection H4 as ->. assumption.
  - right. destruct kr; cbn in H4; [|discriminate]. injection H4 as ->. assumption.
Qed.

Theorem tt_union rb rl rr (m right : trie K V) m' r o : reachable m -> reachable right ->
  map_tt rdef rd st (JUnchangedLR rb) (TUnchanged rl) (TUnchanged rr) m right = Ret (m', r, o) ->
  reachable m' /\ (forall Q (KQ : Key Q) (q : Q), has m' q = has m q || has right q) /\
  map_size m' + shared m right = map_size m + map_size right /\
  (forall x, In x (map_visit m') -> In x (map_visit m) \/ In x (map_visit right)).
Proof.
  intros HR HRr HT. destruct (tt_algebra true true true rb rl rr m right m' r o HR HRr HT) as (H1 & H2 & H3 & H4 & H5 & H6).
  split; [assumption|]. split; [|split; [lia|assumption]].
  intros Q KQ q. rewrite H2. destruct (has m q), (has right q); reflexivity.
Qed.

Theorem tt_intersection rb rl rr (m right : trie K V) m' r o : reachable m -> reachable right ->
  map_tt rdef rd st (JUnchangedLR rb) (TRemoved rl) (TRemoved rr) m right = Ret (m', r, o) ->
  reachable m' /\ (forall Q (KQ : Key Q) (q : Q), has m' q = has m q && has right q) /\
  map_size m' = shared m right /\
  (forall x, In x (map_visit m') -> In x (map_visit m) \/ In x (map_visit right)).
Proof.
  intros HR HRr HT. destruct (tt_algebra true false false rb rl rr m right m' r o HR HRr HT) as (H1 & H2 & H3 & H4 & H5 & H6).
  split; [assumption|]. split; [|split; [lia|assumption]].
  intros Q KQ q. rewrite H2. destruct (has m q), (has right q); reflexivity.
Qed.

Theorem tt_difference rb rl rr (m right : trie K V) m' r o : reachable m -> reachable right ->
  map_tt rdef rd st (JRemoved rb) (TUnchanged rl) (TRemoved rr) m right = Ret (m', r, o) ->
  reachable m' /\ (forall Q (KQ : Key Q) (q : Q), has m' q = has m q && negb (has right q)) /\
  map_size m' + shared m right = map_size m /\
  (forall x, In x (map_visit m') -> In x (map_visit m) \/ In x (map_visit right)).
Proof.
  intros HR HRr HT. destruct (tt_algebra false true false rb rl rr m right m' r o HR HRr HT) as (H1 & H2 & H3 & H4 & H5 & H6).
  split; [assumption|]. split; [|split; [lia|assumption]].
  intros Q KQ q. rewrite H2. destruct (has m q), (has right q); reflexivity.
Qed.

Theorem tt_symmetric_difference rb rl rr (m right : trie K V) m' r o : reachable m -> reachable right ->
  map_tt rdef rd st (JRemoved rb) (TUnchanged rl) (TUnchanged rr) m right = Ret (m', r, o) ->
  reachable m' /\ (forall Q (KQ : Key Q) (q : Q), has m' q = xorb (has m q) (has right q)) /\
  map_size m' + 2 * shared m right = map_size m + map_size right /\
  (forall x, In x (map_visit m') -> In x (map_visit m) \/ In x (map_visit right)).
Proof.
  intros HR HRr HT. destruct (tt_algebra false true true rb rl rr m right m' r o HR HRr HT) as (H1 & H2 & H3 & H4 & H5 & H6).
  split; [assumption|]. split; [|split; [lia|assumption]].
  intros Q KQ q. rewrite H2. destruct (has m q), (has right q); reflexivity.
Qed.

End TT.

(** * Agreement *)
Section Agree.
Context {E : Env} {K V R R' : Type} {KK : Key K}.

(** Two results that allow the same entries. *)
Definition b_same {A} (o : bres V R) (o' : bres V A) : Prop :=
  match o, o' with
  | BUnchangedLR _, BUnchangedLR _ | BUnchangedL _, BUnchangedL _ | BUnchangedR _, BUnchangedR _ | BDropped _, BDropped _ => True
  | BTransformed v _, BTransformed v' _ => v = v'
  | _, _ => False
  end.

Lemma b_same_to {A} (o : bres V R) (o' : bres V A) (e e' : K * V) x : b_same o o' -> b_to o e e' x -> b_to o' e e' x.
Proof. destruct o, o'; cbn; try contradiction; auto. intros ->. auto. Qed.

Lemma b_to_none (o : bres V R) (e e' : K * V) x y : b_to o e e' x -> b_to o e e' y -> (x = None <-> y = None).
Proof. destruct o; cbn; intuition (subst; discriminate || auto). Qed.

Lemma b_to_value (o : bres V R) (e e' : K * V) x y : snd e = snd e' -> b_to o e e' x -> b_to o e e' y -> option_map snd x = option_map snd y.
Proof.
  intros Hv. destruct o; cbn; intros Hx Hy; repeat match goal with H : _ \/ _ |- _ => destruct H end; subst; cbn; congruence.
Qed.

Lemma merges_has {L W S X S' X'} {KL : Key L} {KS : Key S} {KS' : Key S'} (fB : K * V -> L * W -> option (S * X)) fL fR
  (gB : K * V -> L * W -> option (S' * X')) gL gR (m : trie K V) (right : trie L W) m1 m2 :
  reachable m -> reachable right ->
  is_merge fB fL fR m right m1 -> is_merge gB gL gR m right m2 ->
  (forall e e', In e (map_visit m) -> In e' (map_visit right) -> cls (fst e) = cls (fst e') -> (fB e e' = None <-> gB e e' = None)) ->
  (forall e, In e (map_visit m) -> (fL e = None <-> gL e = None)) ->
  (forall e, In e (map_visit right) -> (fR e = None <-> gR e = None)) ->
  (forall Q (KQ : Key Q) (q : Q), has m1 q = has m2 q) /\ map_size m1 = map_size m2.
Proof.
  intros HR HRr H1 H2 HB HL HRR. split.
  - intros Q KQ q. unfold has. rewrite (im_find _ _ _ _ _ _ H1), (im_find _ _ _ _ _ _ H2).
    rewrite (map_find_ok m q) by (apply reachable_mwf; assumption). rewrite (map_find_ok right q) by (apply reachable_mwf; assumption).
    unfold jfound.
    destruct (lookup (cls q) (map_visit m)) as [e|] eqn:He, (lookup (cls q) (map_visit right)) as [e'|] eqn:He'; cbn [find_res];
      repeat match goal with H : lookup _ _ = Some _ |- _ => apply lookup_in in H; destruct H end.
    + assert (H' : fB e e' = None <-> gB e e' = None) by (apply HB; try assumption; unfold ecls in *; congruence).
      destruct (fB e e'), (gB e e'); try reflexivity; destruct H' as [A B]; (discriminate (A eq_refl) || discriminate (B eq_refl)).
    + pose proof (HL e ltac:(assumption)) as H'.
      destruct (fL e), (gL e); try reflexivity; destruct H' as [A B]; (discriminate (A eq_refl) || discriminate (B eq_refl)).
    + pose proof (HRR e' ltac:(assumption)) as H'.
      destruct (fR e'), (gR e'); try reflexivity; destruct H' as [A B]; (discriminate (A eq_refl) || discriminate (B eq_refl)).
    + reflexivity.
  - rewrite (im_size _ _ _ _ _ _ H1), (im_size _ _ _ _ _ _ H2). f_equal. apply merge_length; assumption.
Qed.

(** Two calls whose operations decide alike for every key. *)
Theorem tt_agree (rdef : R) rd st (rdef' : R') rd' st' both lop rop both' lop' rop' (m right : trie K V) m1 r1 o1 m2 r2 o2 :
  reachable m -> reachable right ->
  tame both lop rop (map_visit m) (map_visit right) -> ~ one_sided both ->
  tame both' lop' rop' (map_visit m) (map_visit right) -> ~ one_sided both' ->
  (forall e e', In e (map_visit m) -> In e' (map_visit right) -> cls (fst e) = cls (fst e') -> b_same (jcall both e e') (jcall both' e e')) ->
  (forall e, In e (map_visit m) -> t_to (tcall lop e) e = t_to (tcall lop' e) e) ->
  (forall e, In e (map_visit right) -> t_to (tcall rop e) e = t_to (tcall rop' e) e) ->
  map_tt rdef rd st both lop rop m right = Ret (m1, r1, o1) ->
  map_tt rdef' rd' st' both' lop' rop' m right = Ret (m2, r2, o2) ->
  (forall Q (KQ : Key Q) (q : Q), has m1 q = has m2 q) /\ map_size m1 = map_size m2 /\
  ((forall e e', In e (map_visit m) -> In e' (map_visit right) -> cls (fst e) = cls (fst e') -> snd e = snd e') -> alike m1 m2).
Proof.
  intros HR HRr HD Hn HD' Hn' HB HL HRR H1 H2.
  destruct (tt_exact rdef rd st both lop rop m right m1 r1 o1 HR HRr HD Hn H1) as [(fB & HM1 & HB1) _].
  destruct (tt_exact rdef' rd' st' both' lop' rop' m right m2 r2 o2 HR HRr HD' Hn' H2) as [(gB & HM2 & HB2) _].
  assert (HX : forall e e', In e (map_visit m) -> In e' (map_visit right) -> cls (fst e) = cls (fst e') ->
    b_to (jcall both' e e') e e' (fB e e') /\ b_to (jcall both' e e') e e' (gB e e')).
  { intros e e' A B C. split; [|auto]. eapply b_same_to; [apply HB; assumption|auto]. }
  split; [|split].
  - apply (merges_has _ _ _ _ _ _ m right m1 m2 HR HRr HM1 HM2).
    + intros e e' A B C. destruct (HX e e' A B C) as [X Y]. destruct (jcall both' e e'); cbn in X, Y; intuition (subst; try discriminate; auto; congruence).
    + intros e A. rewrite HL by assumption. reflexivity.
    + intros e A. rewrite HRR by assumption. reflexivity.
  - apply (merges_has _ _ _ _ _ _ m right m1 m2 HR HRr HM1 HM2).
    + intros e e' A B C. destruct (HX e e' A B C) as [X Y]. destruct (jcall both' e e'); cbn in X, Y; intuition (subst; try discriminate; auto; congruence).
    + intros e A. rewrite HL by assumption. reflexivity.
    + intros e A. rewrite HRR by assumption. reflexivity.
  - intros Hv. apply (merges_alike _ _ _ _ _ _ m right m1 m2 HR HRr HM1 HM2).
    + intros e e' A B C. destruct (HX e e' A B C) as [X Y]. pose proof (Hv e e' A B C) as Hv'.
      destruct (jcall both' e e'); cbn in X, Y; repeat match goal with H : _ \/ _ |- _ => destruct H as [H|H] end; rewrite X, Y; cbn; congruence.
    + intros e A. rewrite HL by assumption. reflexivity.
    + intros e A. rewrite HRR by assumption. reflexivity.
Qed.

(** Constants and closures that return the same. *)
Theorem tt_constants (rdef : R) rd st (rdef' : R') rd' st' (kb kl kr : bool) rb rl rr rb' rl' rr' (m right : trie K V) m1 r1 o1 m2 r2 o2 :
  reachable m -> reachable right ->
  map_tt rdef rd st (if kb then JUnchangedLR rb else JRemoved rb) (if kl then TUnchanged rl else TRemoved rl)
    (if kr then TUnchanged rr else TRemoved rr) m right = Ret (m1, r1, o1) ->
  map_tt rdef' rd' st' (JGeneric (fun _ _ => if kb then BUnchangedLR rb' else BDropped rb') false)
    (TGeneric (fun _ => if kl then VUnchanged rl' else VDropped rl')) (TGeneric (fun _ => if kr then VUnchanged rr' else VDropped rr'))
    m right = Ret (m2, r2, o2) ->
  (forall Q (KQ : Key Q) (q : Q), has m1 q = has m2 q) /\ map_size m1 = map_size m2 /\
  ((forall e e', In e (map_visit m) -> In e' (map_visit right) -> cls (fst e) = cls (fst e') -> snd e = snd e') -> alike m1 m2).
Proof.
  intros HR HRr H1 H2. refine (tt_agree rdef rd st rdef' rd' st' _ _ _ _ _ _ m right m1 r1 o1 m2 r2 o2 HR HRr _ _ _ _ _ _ _ H1 H2).
  - apply tame_impartial; [destruct kb; intros e e'; exact I|left; destruct kl|left; destruct kr]; apply steady_unchanged || apply steady_removed.
  - destruct kb; intros [].
  - apply tame_impartial; [destruct kb; intros e e'; exact I|left; destruct kl|left; destruct kr]; intros e e'; cbn; auto.
  - intros [].
  - intros e e' _ _ _. destruct kb; exact I.
  - intros e _. destruct kl; reflexivity.
  - intros e _. destruct kr; reflexivity.
Qed.

End Agree.
