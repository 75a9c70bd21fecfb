(** Joint operations on reachable maps, seen through find, size and visit. *)
From Coq Require Import NArith Arith List Bool Lia ZifyBool ZifyN ZifyNat Permutation.
From Verif Require Import Base Words WordsP Flag FlagP Bia BiaP Node Spec SpecP Inv NodeP InsertP TrieP Api ApiP
  Trans Transform LoopP SpecT TransformP TransApiP Joint SpecJ JoinP JointP JointMP JointLeafP JointNodeP JointApiP
  Reach ReachP MapP TransMapP.
Import ListNotations.
Open Scope N_scope.

(** What find says on the merge of two maps, given what it says on them. *)
Definition jfound {K V L W S X} (fB : K * V -> L * W -> option (S * X)) (fL : K * V -> option (S * X)) (fR : L * W -> option (S * X))
  (a : outcome (result (K * V) trie_error)) (b : outcome (result (L * W) trie_error)) : outcome (result (S * X) trie_error) :=
  let res o := Ret (match o with Some x => Ok x | None => Err NotFound end) in
  match a, b with
  | Ret (Ok e), Ret (Ok e') => res (fB e e')
  | Ret (Ok e), Ret (Err _) => res (fL e)
  | Ret (Err _), Ret (Ok e') => res (fR e')
  | Ret (Err _), Ret (Err _) => res None
  | _, _ => Panic
  end.

(** The merge of two maps, as a client sees it. *)
Record is_merge {E : Env} {K V L W S X} {KK : Key K} {KL : Key L} {KS : Key S}
  (fB : K * V -> L * W -> option (S * X)) (fL : K * V -> option (S * X)) (fR : L * W -> option (S * X))
  (m : trie K V) (right : trie L W) (m' : trie S X) : Prop := {
  im_reach : reachable m';
  im_find : forall Q (KQ : Key Q) (q : Q), map_find m' q = jfound fB fL fR (map_find m q) (map_find right q);
  im_visit : Permutation (map_visit m') (merged_entries fB fL fR (map_visit m) (map_visit right));
  im_size : map_size m' = N.of_nat (length (merged_entries fB fL fR (map_visit m) (map_visit right)))
}.

Lemma merge_is {E : Env} {K V L W S X R} {KK : Key K} {KL : Key L} {KS : Key S} (rdef : R) (rd : R -> R -> R) g
  (bi : K * V -> L * W -> option (S * X) * R) li ri (m : trie K V) (right : trie L W) m' r :
  mwf m -> mwf right -> reachable m' -> map_merge rdef rd g bi li ri m right m' r ->
  is_merge (fun e e' => fst (bi e e')) (fun e => fst (li e)) (fun e' => fst (ri e')) m right m'.
Proof.
  intros HW HWr HR (HW' & HL & HP & _). split; [assumption| |assumption|].
  - intros Q KQ q. rewrite !map_find_ok by assumption. rewrite HL. unfold jfound.
    destruct (lookup (cls q) (map_visit m)) as [e|], (lookup (cls q) (map_visit right)) as [e'|]; cbn [find_res];
      [destruct (fst (bi e e'))|destruct (fst (li e))|destruct (fst (ri e'))|]; reflexivity.
  - rewrite (mwf_size m' HW'). unfold lenN. rewrite (Permutation_length HP). reflexivity.
Qed.

Section Joint.
Context {E : Env} {K V L W R : Type} {KK : Key K} {KL : Key L}.
Context (rdef : R) (rd : R -> R -> R) (st : strategy).

Theorem tm_exact both lop rop (m : trie K V) (right : trie L W) m' r o : reachable m -> reachable right ->
  (forall e k v x, In e (map_visit right) -> mcall rop e = KTransmuted k v x -> cls k = cls (fst e)) ->
  map_tm rdef rd st both lop rop m right = Ret (m', r, o) ->
  is_merge (fun e e' => t_to (tcall both (e, e')) e) (fun e => t_to (tcall lop e) e) (fun e' => m_to (mcall rop e')) m right m' /\
  (o = Self -> m' = m) /\ o <> Right.
Proof.
  intros HR HRr HK HT. pose proof (map_tm_ok rdef rd st both lop rop m right (reachable_mwf _ HR) (reachable_mwf _ HRr) HK) as H.
  rewrite HT in H. destruct H as (HM & Ho & Ho' & _). split; [|auto].
  assert (HR' : reachable m') by (eapply (reach_tm K V KK L W KL R rdef rd st both lop rop m right); eassumption).
  exact (merge_is rdef rd _ _ _ _ m right m' r (reachable_mwf _ HR) (reachable_mwf _ HRr) HR' HM).
Qed.

Theorem tm_reduction both f h (m : trie K V) (right : trie L W) m' r o : reachable m -> reachable right ->
  (forall e k v x, In e (map_visit right) -> h e = KTransmuted k v x -> cls k = cls (fst e)) ->
  monoid rdef rd -> (forall a b, rd a b = rd b a) ->
  map_tm rdef rd st both (TGeneric f) (MGeneric h) m right = Ret (m', r, o) ->
  r = fold_right rd rdef (merged_reds (fun e e' => t_red (tcall both (e, e'))) (fun e => t_red (f e)) (fun e' => m_red (h e'))
        (map_visit m) (map_visit right)).
Proof.
  intros HR HRr HK HM HC HT.
  pose proof (map_tm_ok rdef rd st both (TGeneric f) (MGeneric h) m right (reachable_mwf _ HR) (reachable_mwf _ HRr) HK) as H.
  rewrite HT in H. destruct H as ((_ & _ & _ & Hr) & _). apply Hr; [split; assumption|split; exact I].
Qed.

Theorem tm_returns both lop rop (m : trie K V) (right : trie L W) : reachable m -> reachable right ->
  (forall e k v x, In e (map_visit right) -> mcall rop e = KTransmuted k v x -> cls k = cls (fst e)) ->
  ((exists m' r o, map_tm rdef rd st both lop rop m right = Ret (m', r, o)) <->
   ~ exists h, (2 <= cnt h (map_visit m))%nat /\ (3 <= cnt h (map_visit right))%nat) /\
  map_tm rdef rd st both lop rop m right <> Panic.
Proof.
  intros HR HRr HK. pose proof (map_tm_ok rdef rd st both lop rop m right (reachable_mwf _ HR) (reachable_mwf _ HRr) HK) as H.
  destruct (map_tm rdef rd st both lop rop m right) as [[[m' r] o]| |]; [|contradiction|].
  - destruct H as (_ & _ & _ & H). split; [|discriminate]. split; [intros _; exact H|eauto].
  - split; [|discriminate]. split; [intros (m' & r & o & [=])|]. intros Hn. exfalso. apply Hn. exact H.
Qed.

Theorem mt_exact both lop rop (m : trie K V) (right : trie L W) m' r o : reachable m -> reachable right ->
  (forall e k v x, In e (map_visit m) -> mcall lop e = KTransmuted k v x -> cls k = cls (fst e)) ->
  map_mt rdef rd st both lop rop m right = Ret (m', r, o) ->
  is_merge (fun e e' => t_to (tcall both (e, e')) e') (fun e => m_to (mcall lop e)) (fun e' => t_to (tcall rop e') e') m right m' /\
  (o = Right -> m' = right) /\ o <> Self.
Proof.
  intros HR HRr HK HT. pose proof (map_mt_ok rdef rd st both lop rop m right (reachable_mwf _ HR) (reachable_mwf _ HRr) HK) as H.
  rewrite HT in H. destruct H as (HM & Ho & Ho' & _). split; [|auto].
  assert (HR' : reachable m') by (eapply (reach_mt K V KK L W KL R rdef rd st both lop rop m right); eassumption).
  exact (merge_is rdef rd _ _ _ _ m right m' r (reachable_mwf _ HR) (reachable_mwf _ HRr) HR' HM).
Qed.

Theorem mt_reduction both f h (m : trie K V) (right : trie L W) m' r o : reachable m -> reachable right ->
  (forall e k v x, In e (map_visit m) -> f e = KTransmuted k v x -> cls k = cls (fst e)) ->
  monoid rdef rd -> (forall a b, rd a b = rd b a) ->
  map_mt rdef rd st both (MGeneric f) (TGeneric h) m right = Ret (m', r, o) ->
  r = fold_right rd rdef (merged_reds (fun e e' => t_red (tcall both (e, e'))) (fun e => m_red (f e)) (fun e' => t_red (h e'))
        (map_visit m) (map_visit right)).
Proof.
  intros HR HRr HK HM HC HT.
  pose proof (map_mt_ok rdef rd st both (MGeneric f) (TGeneric h) m right (reachable_mwf _ HR) (reachable_mwf _ HRr) HK) as H.
  rewrite HT in H. destruct H as ((_ & _ & _ & Hr) & _). apply Hr; [split; assumption|split; exact I].
Qed.

Theorem mt_returns both lop rop (m : trie K V) (right : trie L W) : reachable m -> reachable right ->
  (forall e k v x, In e (map_visit m) -> mcall lop e = KTransmuted k v x -> cls k = cls (fst e)) ->
  ((exists m' r o, map_mt rdef rd st both lop rop m right = Ret (m', r, o)) <->
   ~ exists h, (3 <= cnt h (map_visit m))%nat /\ (2 <= cnt h (map_visit right))%nat) /\
  map_mt rdef rd st both lop rop m right <> Panic.
Proof.
  intros HR HRr HK. pose proof (map_mt_ok rdef rd st both lop rop m right (reachable_mwf _ HR) (reachable_mwf _ HRr) HK) as H.
  destruct (map_mt rdef rd st both lop rop m right) as [[[m' r] o]| |]; [|contradiction|].
  - destruct H as (_ & _ & _ & H). split; [|discriminate]. split; [intros _; exact H|eauto].
  - split; [|discriminate]. split; [intros (m' & r & o & [=])|]. intros Hn. exfalso. apply Hn. exact H.
Qed.

Section MM.
Context {S X : Type} {KS : Key S}.

Theorem mm_exact (both : transmute_op ((K * V) * (L * W)) S X R) lop rop (m : trie K V) (right : trie L W) m' r : reachable m -> reachable right ->
  (forall e e' k v x, In e (map_visit m) -> In e' (map_visit right) -> cls (fst e) = cls (fst e') ->
     mcall both (e, e') = KTransmuted k v x -> cls k = cls (fst e)) ->
  (forall e k v x, In e (map_visit m) -> mcall lop e = KTransmuted k v x -> cls k = cls (fst e)) ->
  (forall e k v x, In e (map_visit right) -> mcall rop e = KTransmuted k v x -> cls k = cls (fst e)) ->
  map_mm rdef rd both lop rop m right = Ret (m', r) ->
  is_merge (fun e e' => m_to (mcall both (e, e'))) (fun e => m_to (mcall lop e)) (fun e' => m_to (mcall rop e')) m right m'.
Proof.
  intros HR HRr HB HKl HKr HT.
  pose proof (map_mm_ok rdef rd both lop rop m right (reachable_mwf _ HR) (reachable_mwf _ HRr) HB HKl HKr) as H.
  rewrite HT in H. destruct H as (HM & _).
  assert (HR' : reachable m') by (eapply (reach_mm K V KK L W KL S X KS R rdef rd both lop rop m right); eassumption).
  exact (merge_is rdef rd _ _ _ _ m right m' r (reachable_mwf _ HR) (reachable_mwf _ HRr) HR' HM).
Qed.

Theorem mm_reduction (both : transmute_op ((K * V) * (L * W)) S X R) f h (m : trie K V) (right : trie L W) m' r : reachable m -> reachable right ->
  (forall e e' k v x, In e (map_visit m) -> In e' (map_visit right) -> cls (fst e) = cls (fst e') ->
     mcall both (e, e') = KTransmuted k v x -> cls k = cls (fst e)) ->
  (forall e k v x, In e (map_visit m) -> f e = KTransmuted k v x -> cls k = cls (fst e)) ->
  (forall e k v x, In e (map_visit right) -> h e = KTransmuted k v x -> cls k = cls (fst e)) ->
  monoid rdef rd -> (forall a b, rd a b = rd b a) ->
  map_mm rdef rd both (MGeneric f) (MGeneric h) m right = Ret (m', r) ->
  r = fold_right rd rdef (merged_reds (fun e e' => m_red (mcall both (e, e'))) (fun e => m_red (f e)) (fun e' => m_red (h e'))
        (map_visit m) (map_visit right)).
Proof.
  intros HR HRr HB HKl HKr HM HC HT.
  pose proof (map_mm_ok rdef rd both (MGeneric f) (MGeneric h) m right (reachable_mwf _ HR) (reachable_mwf _ HRr) HB HKl HKr) as H.
  rewrite HT in H. destruct H as ((_ & _ & _ & Hr) & _). apply Hr; [split; assumption|split; exact I].
Qed.

(** Two bounds for the exact condition, which depends on the shapes. *)
Theorem mm_returns (both : transmute_op ((K * V) * (L * W)) S X R) lop rop (m : trie K V) (right : trie L W) : reachable m -> reachable right ->
  (forall e e' k v x, In e (map_visit m) -> In e' (map_visit right) -> cls (fst e) = cls (fst e') ->
     mcall both (e, e') = KTransmuted k v x -> cls k = cls (fst e)) ->
  (forall e k v x, In e (map_visit m) -> mcall lop e = KTransmuted k v x -> cls k = cls (fst e)) ->
  (forall e k v x, In e (map_visit right) -> mcall rop e = KTransmuted k v x -> cls k = cls (fst e)) ->
  ((forall h, (cnt h (map_visit m) <= 1 \/ cnt h (map_visit right) <= 1 \/
               cnt h (map_visit m) = 2 /\ cnt h (map_visit right) = 2)%nat) ->
     exists m' r, map_mm rdef rd both lop rop m right = Ret (m', r)) /\
  ((exists h, (3 <= cnt h (map_visit m))%nat /\ (3 <= cnt h (map_visit right))%nat) ->
     map_mm rdef rd both lop rop m right = Diverge) /\
  map_mm rdef rd both lop rop m right <> Panic.
Proof.
  intros HR HRr HB HKl HKr.
  pose proof (map_mm_ok rdef rd both lop rop m right (reachable_mwf _ HR) (reachable_mwf _ HRr) HB HKl HKr) as H.
  destruct (map_mm rdef rd both lop rop m right) as [[m' r]| |]; [|contradiction|].
  - destruct H as (_ & H). split; [eauto|]. split; [|discriminate]. intros Hh. exfalso. apply H. exact Hh.
  - split; [|split; [reflexivity|discriminate]]. intros Hn. exfalso. destruct H as [h Hh]. specialize (Hn h). unfold hi_mm in Hh. lia.
Qed.

End MM.
End Joint.

(** * Agreement of the families *)

(** The value an answer of find carries. *)
Definition answer {K V} (a : outcome (result (K * V) trie_error)) : option V :=
  match a with Ret (Ok e) => Some (snd e) | _ => None end.

(** Two maps, possibly with different key types, that answer alike. *)
Definition alike {E : Env} {K L V} {KK : Key K} {KL : Key L} (m1 : trie K V) (m2 : trie L V) : Prop :=
  map_size m1 = map_size m2 /\ forall Q (KQ : Key Q) (q : Q), answer (map_find m1 q) = answer (map_find m2 q).

Section Agree.
Context {E : Env} {K V L W : Type} {KK : Key K} {KL : Key L}.

Lemma merge_length {S X S' X'} (fB : K * V -> L * W -> option (S * X)) fL fR (gB : K * V -> L * W -> option (S' * X')) gL gR
  (ln : list (K * V)) (lr : list (L * W)) :
  (forall e e', In e ln -> In e' lr -> cls (fst e) = cls (fst e') -> (fB e e' = None <-> gB e e' = None)) ->
  (forall e, In e ln -> (fL e = None <-> gL e = None)) -> (forall e, In e lr -> (fR e = None <-> gR e = None)) ->
  length (merged_entries fB fL fR ln lr) = length (merged_entries gB gL gR ln lr).
Proof.
  intros HB HL HR. unfold merged_entries, merge. rewrite !app_length. f_equal.
  - assert (HB' : forall e, In e ln -> forall e', In e' lr -> cls (fst e) = cls (fst e') -> (fB e e' = None <-> gB e e' = None)) by eauto.
    clear HB. revert HB' HL. clear HR. generalize ln at 1 2 3 4. induction ln0 as [|e l IH]; intros HB HL; [reflexivity|].
    cbn [flat_map]. rewrite !app_length. rewrite IH by (intros; (apply HB || apply HL); solve [right; assumption|assumption]). f_equal.
    destruct (lookup (ecls e) lr) as [e'|] eqn:He.
    + apply lookup_in in He. destruct He as [Hi Hc].
      pose proof (HB e (or_introl eq_refl) e' Hi (eq_sym Hc)) as H. destruct (fB e e'), (gB e e'); cbn [opt length]; try reflexivity;
        exfalso; destruct H as [H H']; (discriminate (H eq_refl) || discriminate (H' eq_refl)).
    + pose proof (HL e (or_introl eq_refl)) as H. destruct (fL e), (gL e); cbn [opt length]; try reflexivity;
        exfalso; destruct H as [H H']; (discriminate (H eq_refl) || discriminate (H' eq_refl)).
  - assert (HR' : forall e, In e (filter (unmatched ln) lr) -> (fR e = None <-> gR e = None)).
    { intros e He. apply HR. apply filter_In in He. apply He. }
    revert HR'. generalize (filter (unmatched ln) lr). induction l as [|e l IH]; intros HR'; [reflexivity|].
    cbn [flat_map]. rewrite !app_length. rewrite IH by (intros; apply HR'; right; assumption). f_equal.
    pose proof (HR' e (or_introl eq_refl)) as H. destruct (fR e), (gR e); cbn [opt length]; try reflexivity;
        exfalso; destruct H as [H H']; (discriminate (H eq_refl) || discriminate (H' eq_refl)).
Qed.

Lemma osnd_None {A B A' } (a : option (A * B)) (b : option (A' * B)) : option_map snd a = option_map snd b -> (a = None <-> b = None).
Proof. destruct a, b; cbn; intros H; split; intros; congruence. Qed.

Theorem merges_alike {S S' X} {KS : Key S} {KS' : Key S'} (fB : K * V -> L * W -> option (S * X)) fL fR
  (gB : K * V -> L * W -> option (S' * X)) gL gR (m : trie K V) (right : trie L W) m1 m2 :
  reachable m -> reachable right ->
  is_merge fB fL fR m right m1 -> is_merge gB gL gR m right m2 ->
  (forall e e', In e (map_visit m) -> In e' (map_visit right) -> cls (fst e) = cls (fst e') ->
     option_map snd (fB e e') = option_map snd (gB e e')) ->
  (forall e, In e (map_visit m) -> option_map snd (fL e) = option_map snd (gL e)) ->
  (forall e, In e (map_visit right) -> option_map snd (fR e) = option_map snd (gR e)) ->
  alike m1 m2.
Proof.
  intros HR HRr H1 H2 HB HL HRR. split.
  - rewrite (im_size _ _ _ _ _ _ H1), (im_size _ _ _ _ _ _ H2). f_equal.
    apply merge_length; intros; apply osnd_None; auto.
  - intros Q KQ q. rewrite (im_find _ _ _ _ _ _ H1), (im_find _ _ _ _ _ _ H2).
    rewrite (map_find_ok m q) by (apply reachable_mwf; assumption). rewrite (map_find_ok right q) by (apply reachable_mwf; assumption).
    unfold jfound.
    destruct (lookup (cls q) (map_visit m)) as [e|] eqn:He, (lookup (cls q) (map_visit right)) as [e'|] eqn:He'; cbn [find_res];
      repeat match goal with H : lookup _ _ = Some _ |- _ => apply lookup_in in H; destruct H end.
    + pose proof (HB e e') as HH. destruct (fB e e'), (gB e e'); cbn in HH |- *; apply HH; try assumption; unfold ecls in *; congruence.
    + pose proof (HL e) as HH. destruct (fL e), (gL e); cbn in HH |- *; apply HH; assumption.
    + pose proof (HRR e') as HH. destruct (fR e'), (gR e'); cbn in HH |- *; apply HH; assumption.
    + reflexivity.
Qed.

End Agree.

(** * Consequences *)
Section Conseq.
Context {E : Env} {K V L W S X : Type} {KK : Key K} {KL : Key L} {KS : Key S}.
Context (fB : K * V -> L * W -> option (S * X)) (fL : K * V -> option (S * X)) (fR : L * W -> option (S * X)).
Context (m : trie K V) (right : trie L W) (m' : trie S X).

Lemma opt_in {A} (o : option A) a : In a (opt o) -> o = Some a.
Proof. destruct o; cbn; [intros [->|[]]; reflexivity|intros []]. Qed.

(** Where an entry of a merge comes from. *)
Theorem merge_source : is_merge fB fL fR m right m' -> forall x, In x (map_visit m') ->
  (exists e e', In e (map_visit m) /\ In e' (map_visit right) /\ cls (fst e) = cls (fst e') /\ fB e e' = Some x) \/
  (exists e, In e (map_visit m) /\ lookup (cls (fst e)) (map_visit right) = None /\ fL e = Some x) \/
  (exists e', In e' (map_visit right) /\ lookup (cls (fst e')) (map_visit m) = None /\ fR e' = Some x).
Proof.
  intros HM x Hx. apply (Permutation_in _ (im_visit _ _ _ _ _ _ HM)) in Hx. unfold merged_entries, merge in Hx.
  apply in_app_iff in Hx. destruct Hx as [Hx|Hx]; apply in_flat_map in Hx; destruct Hx as [e [He Hx]].
  - destruct (lookup (ecls e) (map_visit right)) as [e'|] eqn:Hl.
    + left. exists e, e'. apply opt_in in Hx. apply lookup_in in Hl. destruct Hl as [Hi Hc]. unfold ecls in Hc. auto.
    + right. left. exists e. apply opt_in in Hx. auto.
  - right. right. exists e. apply filter_In in He. destruct He as [He Hu]. apply opt_in in Hx.
    split; [assumption|]. split; [|assumption]. unfold unmatched, ecls in Hu. destruct (lookup _ _); [discriminate|reflexivity].
Qed.

(** A merge that drops everything is the new map. *)
Theorem merge_all_dropped : is_merge fB fL fR m right m' ->
  (forall e e', In e (map_visit m) -> In e' (map_visit right) -> cls (fst e) = cls (fst e') -> fB e e' = None) ->
  (forall e, In e (map_visit m) -> fL e = None) -> (forall e', In e' (map_visit right) -> fR e' = None) ->
  m' = map_new.
Proof.
  intros HM HB HL HR. apply empty_is_new; [apply reachable_mwf; exact (im_reach _ _ _ _ _ _ HM)|].
  destruct (map_visit m') as [|x l] eqn:Hv; [reflexivity|]. exfalso.
  destruct (merge_source HM x) as [(e & e' & H1 & H2 & H3 & H4)|[(e & H1 & _ & H4)|(e & H1 & _ & H4)]].
  - rewrite Hv. left. reflexivity.
  - rewrite HB in H4 by assumption. discriminate.
  - rewrite HL in H4 by assumption. discriminate.
  - rewrite HR in H4 by assumption. discriminate.
Qed.
End Conseq.

Section Conseq2.
Context {E : Env} {K V L W R : Type} {KK : Key K} {KL : Key L}.
Context (rdef : R) (rd : R -> R -> R) (st : strategy).

Lemma t_to_key {A B Z} (o : vres B Z) (e : A * B) x : t_to o e = Some x -> fst x = fst e.
Proof. destruct o; cbn [t_to]; intros [= <-]; reflexivity. Qed.
Lemma m_to_eq {A B Z} (o : kres A B Z) x : m_to o = Some x -> exists z, o = KTransmuted (fst x) (snd x) z.
Proof. destruct o; cbn [m_to]; intros [= <-]. eexists. reflexivity. Qed.

Theorem tm_keys both lop rop (m : trie K V) (right : trie L W) m' r o : reachable m -> reachable right ->
  (forall e k v x, In e (map_visit right) -> mcall rop e = KTransmuted k v x -> cls k = cls (fst e)) ->
  map_tm rdef rd st both lop rop m right = Ret (m', r, o) ->
  forall x, In x (map_visit m') ->
    (exists e, In e (map_visit m) /\ fst x = fst e) \/
    (exists e' z, In e' (map_visit right) /\ lookup (cls (fst e')) (map_visit m) = None /\ mcall rop e' = KTransmuted (fst x) (snd x) z).
Proof.
  intros HR HRr HK HT x Hx. destruct (tm_exact rdef rd st both lop rop m right m' r o HR HRr HK HT) as [HM _].
  destruct (merge_source _ _ _ _ _ _ HM x Hx) as [(e & e' & H1 & H2 & H3 & H4)|[(e & H1 & _ & H4)|(e & H1 & H2 & H4)]].
  - left. exists e. apply t_to_key in H4. auto.
  - left. exists e. apply t_to_key in H4. auto.
  - right. apply m_to_eq in H4. destruct H4 as [z H4]. eauto 6.
Qed.

Theorem mt_keys both lop rop (m : trie K V) (right : trie L W) m' r o : reachable m -> reachable right ->
  (forall e k v x, In e (map_visit m) -> mcall lop e = KTransmuted k v x -> cls k = cls (fst e)) ->
  map_mt rdef rd st both lop rop m right = Ret (m', r, o) ->
  forall x, In x (map_visit m') ->
    (exists e', In e' (map_visit right) /\ fst x = fst e') \/
    (exists e z, In e (map_visit m) /\ lookup (cls (fst e)) (map_visit right) = None /\ mcall lop e = KTransmuted (fst x) (snd x) z).
Proof.
  intros HR HRr HK HT x Hx. destruct (mt_exact rdef rd st both lop rop m right m' r o HR HRr HK HT) as [HM _].
  destruct (merge_source _ _ _ _ _ _ HM x Hx) as [(e & e' & H1 & H2 & H3 & H4)|[(e & H1 & H2 & H4)|(e & H1 & _ & H4)]].
  - left. exists e'. apply t_to_key in H4. auto.
  - right. apply m_to_eq in H4. destruct H4 as [z H4]. eauto 6.
  - left. exists e. apply t_to_key in H4. auto.
Qed.

Theorem tm_all_dropped both lop rop (m : trie K V) (right : trie L W) m' r o : reachable m -> reachable right ->
  (forall e e', In e (map_visit m) -> In e' (map_visit right) -> cls (fst e) = cls (fst e') -> exists x, tcall both (e, e') = VDropped x) ->
  (forall e, In e (map_visit m) -> exists x, tcall lop e = VDropped x) ->
  (forall e, In e (map_visit right) -> exists x, mcall rop e = KDropped x) ->
  map_tm rdef rd st both lop rop m right = Ret (m', r, o) -> m' = map_new.
Proof.
  intros HR HRr HB HL HRR HT.
  destruct (tm_exact rdef rd st both lop rop m right m' r o HR HRr) as [HM _]; [|assumption|].
  { intros e k v x He Hx. destruct (HRR e He) as [z Hz]. congruence. }
  refine (merge_all_dropped _ _ _ _ _ _ HM _ _ _).
  - intros e e' H1 H2 H3. destruct (HB e e' H1 H2 H3) as [x ->]. reflexivity.
  - intros e H1. destruct (HL e H1) as [x ->]. reflexivity.
  - intros e H1. destruct (HRR e H1) as [x ->]. reflexivity.
Qed.

Theorem mt_all_dropped both lop rop (m : trie K V) (right : trie L W) m' r o : reachable m -> reachable right ->
  (forall e e', In e (map_visit m) -> In e' (map_visit right) -> cls (fst e) = cls (fst e') -> exists x, tcall both (e, e') = VDropped x) ->
  (forall e, In e (map_visit m) -> exists x, mcall lop e = KDropped x) ->
  (forall e, In e (map_visit right) -> exists x, tcall rop e = VDropped x) ->
  map_mt rdef rd st both lop rop m right = Ret (m', r, o) -> m' = map_new.
Proof.
  intros HR HRr HB HL HRR HT.
  destruct (mt_exact rdef rd st both lop rop m right m' r o HR HRr) as [HM _]; [|assumption|].
  { intros e k v x He Hx. destruct (HL e He) as [z Hz]. congruence. }
  refine (merge_all_dropped _ _ _ _ _ _ HM _ _ _).
  - intros e e' H1 H2 H3. destruct (HB e e' H1 H2 H3) as [x ->]. reflexivity.
  - intros e H1. destruct (HL e H1) as [x ->]. reflexivity.
  - intros e H1. destruct (HRR e H1) as [x ->]. reflexivity.
Qed.

Theorem mm_all_dropped {S X} {KS : Key S} (both : transmute_op ((K * V) * (L * W)) S X R) lop rop (m : trie K V) (right : trie L W) m' r :
  reachable m -> reachable right ->
  (forall e e', In e (map_visit m) -> In e' (map_visit right) -> cls (fst e) = cls (fst e') -> exists x, mcall both (e, e') = KDropped x) ->
  (forall e, In e (map_visit m) -> exists x, mcall lop e = KDropped x) ->
  (forall e, In e (map_visit right) -> exists x, mcall rop e = KDropped x) ->
  map_mm rdef rd both lop rop m right = Ret (m', r) -> m' = map_new.
Proof.
  intros HR HRr HB HL HRR HT.
  refine (merge_all_dropped _ _ _ _ _ _ (mm_exact rdef rd both lop rop m right m' r HR HRr _ _ _ HT) _ _ _).
  - intros e e' k v x H1 H2 H3 H4. destruct (HB e e' H1 H2 H3). congruence.
  - intros e k v x H1 H4. destruct (HL e H1). congruence.
  - intros e k v x H1 H4. destruct (HRR e H1). congruence.
  - intros e e' H1 H2 H3. destruct (HB e e' H1 H2 H3) as [x ->]. reflexivity.
  - intros e H1. destruct (HL e H1) as [x ->]. reflexivity.
  - intros e H1. destruct (HRR e H1) as [x ->]. reflexivity.
Qed.
End Conseq2.
