(** Facts about merging two association lists. *)
From Coq Require Import NArith Arith List Bool Lia Permutation.
From Verif Require Import Base Spec SpecP SpecJ.
Import ListNotations.

Lemma flat_map_all_nil {A B} (f : A -> list B) l : (forall a, In a l -> f a = []) -> flat_map f l = [].
Proof. induction l; cbn; intros H; [reflexivity|]. rewrite H, IHl by auto. reflexivity. Qed.

Lemma flat_map_one {A B} (f : A -> list B) l a : NoDup l -> In a l -> (forall b, In b l -> b <> a -> f b = []) ->
  flat_map f l = f a.
Proof.
  induction l as [|x l IH]; intros HN Hin H; [destruct Hin|]. inversion HN; subst. cbn.
  destruct Hin as [->|Hin].
  - rewrite flat_map_all_nil; [apply app_nil_r|]. intros b Hb. apply H; [right; assumption|]. intros ->. contradiction.
  - rewrite (H x) by (auto with datatypes; intros ->; contradiction). apply IH; auto with datatypes.
Qed.

Lemma flat_map_perm {A B} (f : A -> list B) l l' : Permutation l l' -> Permutation (flat_map f l) (flat_map f l').
Proof.
  induction 1; cbn; auto.
  - apply Permutation_app_head. assumption.
  - rewrite !app_assoc. apply Permutation_app_tail. apply Permutation_app_comm.
  - etransitivity; eassumption.
Qed.

Lemma filter_perm {A} (p : A -> bool) l l' : Permutation l l' -> Permutation (filter p l) (filter p l').
Proof.
  induction 1; cbn; auto.
  - destruct (p x); auto.
  - destruct (p x), (p y); auto. apply perm_swap.
  - etransitivity; eassumption.
Qed.

Lemma filter_flat_map {A B} (p : B -> bool) (f : A -> list B) l : filter p (flat_map f l) = flat_map (fun a => filter p (f a)) l.
Proof. induction l; cbn; [reflexivity|]. rewrite filter_app, IHl. reflexivity. Qed.

Section JoinP.
Context {E : Env} {K V L W : Type} {KK : Key K} {KL : Key L}.

Definition disj (l : list (K * V)) (r : list (L * W)) : Prop :=
  forall e e', In e l -> In e' r -> ecls e <> ecls e'.

Lemma disj_lookup l r e : disj l r -> In e l -> lookup (ecls e) r = None.
Proof. intros H He. apply lookup_none. intros e' He' Hc. eapply H; eauto. Qed.

Lemma unmatched_app (l1 l2 : list (K * V)) (e' : L * W) : unmatched (l1 ++ l2) e' = unmatched l1 e' && unmatched l2 e'.
Proof. unfold unmatched. rewrite lookup_app. destruct (lookup (ecls e') l1); [reflexivity|]. destruct (lookup (ecls e') l2); reflexivity. Qed.

Lemma unmatched_disj l r (e' : L * W) : disj l r -> In e' r -> unmatched l e' = true.
Proof.
  intros H He. unfold unmatched. destruct (lookup (ecls e') l) as [e|] eqn:Hl; [|reflexivity].
  apply lookup_in in Hl. destruct Hl as [H1 H2]. exfalso. exact (H _ _ H1 He H2).
Qed.

Section Merge.
Context {A : Type}.
Context (fB : K * V -> L * W -> list A) (fL : K * V -> list A) (fR : L * W -> list A).

Lemma merge_nil_r ln : merge fB fL fR ln [] = flat_map fL ln.
Proof. unfold merge. cbn. apply app_nil_r. Qed.

Lemma merge_nil_l lr : merge fB fL fR [] lr = flat_map fR lr.
Proof. unfold merge. cbn. induction lr; cbn; congruence. Qed.

Lemma merge_app l1 l2 r1 r2 : disj l1 r2 -> disj l2 r1 ->
  Permutation (merge fB fL fR (l1 ++ l2) (r1 ++ r2)) (merge fB fL fR l1 r1 ++ merge fB fL fR l2 r2).
Proof.
  intros H12 H21. unfold merge. rewrite flat_map_app, filter_app, flat_map_app.
  assert (HL1 : flat_map (fun e => match lookup (ecls e) (r1 ++ r2) with Some e' => fB e e' | None => fL e end) l1 =
    flat_map (fun e => match lookup (ecls e) r1 with Some e' => fB e e' | None => fL e end) l1).
  { rewrite !flat_map_concat_map. f_equal. apply map_ext_in. intros e He. rewrite lookup_app.
    destruct (lookup (ecls e) r1); [reflexivity|]. rewrite (disj_lookup _ _ _ H12 He). reflexivity. }
  assert (HL2 : flat_map (fun e => match lookup (ecls e) (r1 ++ r2) with Some e' => fB e e' | None => fL e end) l2 =
    flat_map (fun e => match lookup (ecls e) r2 with Some e' => fB e e' | None => fL e end) l2).
  { rewrite !flat_map_concat_map. f_equal. apply map_ext_in. intros e He. rewrite lookup_app.
    rewrite (disj_lookup _ _ _ H21 He). reflexivity. }
  assert (HR1 : filter (unmatched (l1 ++ l2)) r1 = filter (unmatched l1) r1).
  { apply filter_ext_in. intros e' He'. rewrite unmatched_app, (unmatched_disj l2 r1) by assumption. apply andb_true_r. }
  assert (HR2 : filter (unmatched (l1 ++ l2)) r2 = filter (unmatched l2) r2).
  { apply filter_ext_in. intros e' He'. rewrite unmatched_app, (unmatched_disj l1 r2) by assumption. reflexivity. }
  rewrite HL1, HL2, HR1, HR2. rewrite <- !app_assoc. apply Permutation_app_head.
  rewrite !app_assoc. apply Permutation_app_tail. apply Permutation_app_comm.
Qed.

Lemma merge_slots {I} (l : list I) (ls : I -> list (K * V)) (rs : I -> list (L * W)) : NoDup l ->
  (forall i j, In i l -> In j l -> i <> j -> disj (ls i) (rs j)) ->
  Permutation (merge fB fL fR (flat_map ls l) (flat_map rs l)) (flat_map (fun i => merge fB fL fR (ls i) (rs i)) l).
Proof.
  induction l as [|i l IH]; intros HN H; cbn [flat_map]; [reflexivity|]. inversion HN; subst.
  rewrite merge_app.
  - apply Permutation_app_head. apply IH; [assumption|]. intros; apply H; auto with datatypes.
  - intros e e' He He'. apply in_flat_map in He'. destruct He' as (j & Hj & He').
    apply (H i j); auto with datatypes. intros ->. contradiction.
  - intros e e' He He'. apply in_flat_map in He. destruct He as (j & Hj & He).
    apply (H j i); auto with datatypes. intros ->. contradiction.
Qed.

(** Adding one left entry that matches nothing. *)
Lemma merge_cons e ln lr : lookup (ecls e) lr = None ->
  Permutation (merge fB fL fR (e :: ln) lr) (fL e ++ merge fB fL fR ln lr).
Proof.
  intros H. change (e :: ln) with ([e] ++ ln). change lr with ([] ++ lr) at 1. rewrite merge_app.
  - rewrite merge_nil_r. cbn. rewrite app_nil_r. reflexivity.
  - intros e0 e' [<-|[]] He' Hc. rewrite lookup_none in H. apply (H e' He'). congruence.
  - intros e0 e' _ [].
Qed.

(** A matching pair. *)
Lemma merge_cons_both e e' ln lr : ecls e' = ecls e -> lookup (ecls e) ln = None -> lookup (ecls e) lr = None ->
  Permutation (merge fB fL fR (e :: ln) (e' :: lr)) (fB e e' ++ merge fB fL fR ln lr).
Proof.
  intros Hc Hl Hr. change (e :: ln) with ([e] ++ ln). change (e' :: lr) with ([e'] ++ lr). rewrite merge_app.
  - apply Permutation_app_tail. unfold merge. cbn [flat_map filter]. rewrite lookup_cons, Hc, ceqb_refl.
    unfold unmatched. rewrite lookup_cons, Hc, ceqb_refl. cbn. rewrite !app_nil_r. reflexivity.
  - intros e0 e1 [<-|[]] He1 Hx. rewrite lookup_none in Hr. apply (Hr e1 He1). congruence.
  - intros e0 e1 He0 [<-|[]] Hx. rewrite lookup_none in Hl. apply (Hl e0 He0). congruence.
Qed.

End Merge.
End JoinP.

Section Flip.
Context {E : Env} {K V L W A : Type} {KK : Key K} {KL : Key L}.

Lemma merge_flip (fB : K * V -> L * W -> list A) fL fR ln lr : uniq ln -> uniq lr ->
  Permutation (merge fB fL fR ln lr) (merge (fun e' e => fB e e') fR fL lr ln).
Proof.
  revert lr. induction ln as [|e ln IH]; intros lr Hl Hr.
  - rewrite merge_nil_l, merge_nil_r. reflexivity.
  - apply uniq_cons in Hl. destruct Hl as [Hn Hl].
    destruct (lookup (ecls e) lr) as [e'|] eqn:He.
    + pose proof (lookup_in _ _ _ He) as [Hin Hc].
      pose proof (lookup_perm_cons_without _ _ _ Hr He) as HP.
      set (lr' := without (ecls e) lr) in *.
      assert (Hn' : lookup (ecls e) lr' = None) by apply lookup_without_same.
      assert (Hu' : uniq (e' :: lr')) by (eapply uniq_perm; eassumption).
      assert (HM : forall l l', Permutation l l' -> uniq l -> Permutation (merge fB fL fR (e :: ln) l) (merge fB fL fR (e :: ln) l')).
      { intros l l' Hp Hu. unfold merge. apply Permutation_app.
        - rewrite !flat_map_concat_map. erewrite map_ext; [reflexivity|]. intros a. cbn beta.
          rewrite (lookup_perm l l') by assumption. reflexivity.
        - apply flat_map_perm. apply filter_perm. assumption. }
      assert (HM' : forall l l', Permutation l l' -> uniq l -> Permutation (merge (fun e' e => fB e e') fR fL l (e :: ln)) (merge (fun e' e => fB e e') fR fL l' (e :: ln))).
      { intros l l' Hp Hu. unfold merge. apply Permutation_app.
        - apply flat_map_perm. assumption.
        - erewrite filter_ext; [reflexivity|]. intros a. unfold unmatched. rewrite (lookup_perm l l') by assumption. reflexivity. }
      rewrite (HM _ _ HP Hr), (HM' _ _ HP Hr). rewrite merge_cons_both by assumption.
      rewrite merge_cons_both by congruence. apply Permutation_app_head. apply IH; [assumption|]. apply uniq_cons in Hu'. apply Hu'.
    + rewrite merge_cons by assumption. unfold merge at 2.
      cbn [filter]. assert (Hum : unmatched lr e = true) by (unfold unmatched; rewrite He; reflexivity). rewrite Hum. cbn [flat_map].
      rewrite IH by assumption. unfold merge. rewrite !app_assoc.
      rewrite (Permutation_app_comm (fL e)). rewrite <- !app_assoc. rewrite (Permutation_app_comm (fL e)). rewrite app_assoc.
      rewrite app_assoc. apply Permutation_app_tail. apply Permutation_app_tail.
      rewrite !flat_map_concat_map. erewrite map_ext_in; [reflexivity|]. intros e' He'. cbn beta. rewrite lookup_cons.
      destruct (ceqb_spec (ecls e) (ecls e')) as [Hc|]; [|reflexivity].
      exfalso. rewrite lookup_none in He. exact (He e' He' (eq_sym Hc)).
Qed.

End Flip.

Section Lookup.
Context {E : Env} {K V L W S X : Type} {KK : Key K} {KL : Key L} {KS : Key S}.
Context (fB : K * V -> L * W -> list (S * X)) (fL : K * V -> list (S * X)) (fR : L * W -> list (S * X)).

(** What is made of a class, as a list. *)
Definition made (a : option (K * V)) (b : option (L * W)) : list (S * X) :=
  match a, b with
  | Some e, Some e' => fB e e'
  | Some e, None => fL e
  | None, Some e' => fR e'
  | None, None => []
  end.

(** At most one entry, of the same class. *)
Definition keeping (ln : list (K * V)) (lr : list (L * W)) : Prop :=
  forall c, made (lookup c ln) (lookup c lr) = [] \/
            exists e, made (lookup c ln) (lookup c lr) = [e] /\ ecls e = c.

Lemma merge_in ln lr x : uniq ln -> uniq lr -> keeping ln lr -> In x (merge fB fL fR ln lr) ->
  made (lookup (ecls x) ln) (lookup (ecls x) lr) = [x].
Proof.
  intros Hl Hr HK Hin. unfold merge in Hin. apply in_app_or in Hin. destruct Hin as [Hin|Hin].
  - apply in_flat_map in Hin. destruct Hin as (e & He & Hin).
    assert (Hm : In x (made (lookup (ecls e) ln) (lookup (ecls e) lr))).
    { rewrite (in_lookup _ _ Hl He). destruct (lookup (ecls e) lr); exact Hin. }
    destruct (HK (ecls e)) as [H|(y & H & Hc)]; rewrite H in Hm; [destruct Hm|].
    destruct Hm as [->|[]]. rewrite Hc. exact H.
  - apply in_flat_map in Hin. destruct Hin as (e & He & Hin). apply filter_In in He. destruct He as [He Hu].
    assert (Hm : In x (made (lookup (ecls e) ln) (lookup (ecls e) lr))).
    { rewrite (in_lookup _ _ Hr He). unfold unmatched in Hu. destruct (lookup (ecls e) ln); [discriminate|exact Hin]. }
    destruct (HK (ecls e)) as [H|(y & H & Hc)]; rewrite H in Hm; [destruct Hm|].
    destruct Hm as [->|[]]. rewrite Hc. exact H.
Qed.

Lemma merge_made ln lr c x : In x (made (lookup c ln) (lookup c lr)) -> In x (merge fB fL fR ln lr).
Proof.
  intros H. unfold merge. apply in_or_app.
  destruct (lookup c ln) as [e|] eqn:He; [left|right].
  - apply lookup_in in He. destruct He as [He <-]. apply in_flat_map. exists e. split; [assumption|].
    destruct (lookup (ecls e) lr); exact H.
  - destruct (lookup c lr) as [e|] eqn:He'; [|destruct H]. apply lookup_in in He'. destruct He' as [He' <-].
    apply in_flat_map. exists e. split; [|exact H]. apply filter_In. split; [assumption|]. unfold unmatched. rewrite He. reflexivity.
Qed.

Lemma merge_uniq ln lr : uniq ln -> uniq lr -> keeping ln lr -> uniq (merge fB fL fR ln lr).
Proof.
  revert lr. induction ln as [|e ln IH]; intros lr Hl Hr HK.
  - rewrite merge_nil_l. clear Hl. induction lr as [|e lr IH]; cbn; [constructor|].
    apply uniq_cons in Hr. destruct Hr as [Hn Hr].
    assert (Hsub : forall e1, In e1 lr -> fR e1 = [] \/ exists y, fR e1 = [y] /\ ecls y = ecls e1).
    { intros e1 He1. specialize (HK (ecls e1)). rewrite lookup_cons in HK.
      destruct (ceqb_spec (ecls e) (ecls e1)) as [Hc|].
      - rewrite lookup_none in Hn. exfalso. exact (Hn e1 He1 (eq_sym Hc)).
      - rewrite (in_lookup _ _ Hr He1) in HK. exact HK. }
    apply uniq_app.
    + specialize (HK (ecls e)). rewrite lookup_cons, ceqb_refl in HK. cbn [made lookup List.find] in HK.
      destruct HK as [->|(y & -> & _)]; [constructor|]. apply uniq_cons. split; [reflexivity|constructor].
    + apply IH; [assumption|]. intros c. destruct (lookup c lr) as [e1|] eqn:He1; [|left; reflexivity].
      apply lookup_in in He1. destruct He1 as [He1 <-]. exact (Hsub e1 He1).
    + intros e1 e2 He1 He2 Hc. apply in_flat_map in He2. destruct He2 as (e3 & He3 & He2).
      destruct (Hsub e3 He3) as [H|(y & H & Hy)]; rewrite H in He2; [destruct He2|]. destruct He2 as [->|[]].
      specialize (HK (ecls e)). rewrite lookup_cons, ceqb_refl in HK. cbn [made lookup List.find] in HK.
      destruct HK as [HK|(y & HK & Hy')]; rewrite HK in He1; [destruct He1|]. destruct He1 as [->|[]].
      rewrite lookup_none in Hn. apply (Hn e3 He3). congruence.
  - apply uniq_cons in Hl. destruct Hl as [Hn Hl].
    assert (HD : forall a l, a = made (lookup (ecls e) (e :: ln)) (lookup (ecls e) lr) -> uniq l ->
      (forall x, In x l -> ecls x <> ecls e) -> uniq (a ++ l)).
    { intros a l -> Hu Hx. apply uniq_app; [|assumption|].
      - destruct (HK (ecls e)) as [->|(y & -> & _)]; [constructor|]. apply uniq_cons. split; [reflexivity|constructor].
      - intros e1 e2 He1 He2 Hc. destruct (HK (ecls e)) as [H|(y & H & Hy)]; rewrite H in He1; [destruct He1|].
        destruct He1 as [->|[]]. apply (Hx e2 He2). congruence. }
    rewrite lookup_cons, ceqb_refl in HD.
    destruct (lookup (ecls e) lr) as [e'|] eqn:He.
    + pose proof (lookup_in _ _ _ He) as [Hin Hc].
      pose proof (lookup_perm_cons_without _ _ _ Hr He) as HP.
      set (lr' := without (ecls e) lr) in *.
      assert (Hn' : lookup (ecls e) lr' = None) by apply lookup_without_same.
      assert (Hu' : uniq lr') by (apply uniq_without; assumption).
      assert (HM : Permutation (merge fB fL fR (e :: ln) lr) (merge fB fL fR (e :: ln) (e' :: lr'))).
      { unfold merge. apply Permutation_app.
        - rewrite !flat_map_concat_map. erewrite map_ext; [reflexivity|]. intros a. cbn beta.
          rewrite (lookup_perm lr (e' :: lr')) by assumption. reflexivity.
        - apply flat_map_perm. apply filter_perm. assumption. }
      assert (HKt : keeping ln lr').
      { intros c. specialize (HK c). rewrite (lookup_perm lr (e' :: lr') c) in HK by assumption.
        rewrite !lookup_cons in HK. rewrite Hc in HK. destruct (ceqb_spec (ecls e) c) as [Hce|]; [|exact HK].
        rewrite <- Hce, Hn, Hn'. left. reflexivity. }
      apply uniq_perm with (fB e e' ++ merge fB fL fR ln lr').
      { rewrite HM. symmetry. apply merge_cons_both; assumption. }
      apply HD; [reflexivity|apply IH; assumption|].
      intros x Hx Hxe. apply (merge_in _ _ _ Hl Hu' HKt) in Hx. rewrite Hxe, Hn, Hn' in Hx. discriminate.
    + assert (HKt : keeping ln lr).
      { intros c. specialize (HK c). rewrite lookup_cons in HK.
        destruct (ceqb_spec (ecls e) c) as [Hc|]; [|exact HK]. rewrite <- Hc, Hn, He. left. reflexivity. }
      apply uniq_perm with (fL e ++ merge fB fL fR ln lr).
      { symmetry. apply merge_cons. assumption. }
      apply HD; [reflexivity|apply IH; assumption|].
      intros x Hx Hxe. apply (merge_in _ _ _ Hl Hr HKt) in Hx. rewrite Hxe, Hn, He in Hx. discriminate.
Qed.

Lemma merge_lookup ln lr c : uniq ln -> uniq lr -> keeping ln lr ->
  lookup c (merge fB fL fR ln lr) = hd_error (made (lookup c ln) (lookup c lr)).
Proof.
  intros Hl Hr HK. destruct (HK c) as [H|(y & H & Hy)]; rewrite H.
  - cbn. apply lookup_none. intros x Hx Hc. apply (merge_in _ _ _ Hl Hr HK) in Hx. rewrite Hc in Hx. congruence.
  - cbn. rewrite <- Hy. apply in_lookup; [apply merge_uniq; assumption|].
    apply (merge_made ln lr c). rewrite H. left. reflexivity.
Qed.

End Lookup.
