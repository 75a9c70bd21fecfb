(** The crate's tests and examples never fail. *)
From Coq Require Import NArith Arith List Bool Lia ZifyBool ZifyN ZifyNat Permutation.
From Verif Require Import Base Words Flag Bia Node Api ApiP Spec SpecP Inv Trans Transform SpecT LoopP Joint JointT SpecJ Reach ReachP
  MapP TransMapP JointMapP JointTApiP JointTMapP Sets SetP SpecS Depth Fnv FnvP FnvMapP Progs.
Import ListNotations.
Open Scope N_scope.

(** * The standard library's maps *)
Section Std.
Context {E : Env} {K V : Type} {KK : Key K}.
Implicit Types l h : list (K * V).

Lemma lookup_classes c l : (exists e, lookup c l = Some e) <-> In c (map ecls l).
Proof.
  split.
  - intros [e He]. apply lookup_in in He. destruct He as [Hi <-]. apply in_map. exact Hi.
  - intros Hi. apply in_map_iff in Hi. destruct Hi as (e & Hc & Hi). destruct (lookup c l) as [e'|] eqn:Hl; [eauto|].
    exfalso. exact (proj1 (lookup_none c l) Hl e Hi Hc).
Qed.

Lemma std_insert_ok h e : uniq h -> uniq (std_insert h e) /\
  (forall c, In c (map ecls (std_insert h e)) <-> In c (map ecls h) \/ c = ecls e) /\
  (forall x, In x (std_insert h e) -> In (snd x) (map snd h) \/ snd x = snd e).
Proof.
  intros HU. unfold std_insert. destruct (lookup (ecls e) h) as [[k v]|] eqn:HL.
  - apply lookup_in in HL as HI. destruct HI as [HI Hc]. cbn [fst]. unfold ecls in Hc at 1. cbn [fst] in Hc.
    split; [|split].
    + rewrite <- Hc. apply uniq_insert. exact HU.
    + intros c. cbn [map]. change (ecls (k, snd e)) with (cls k). rewrite Hc. split.
      * intros [->|Hi]; [auto|]. left. apply in_map_iff in Hi. destruct Hi as (x & <- & Hx). apply without_in in Hx. apply in_map. apply Hx.
      * intros [Hi| ->]; [|left; reflexivity]. apply in_map_iff in Hi. destruct Hi as (x & <- & Hx).
        destruct (ceqb_spec (ecls x) (ecls e)) as [->|Hn]; [left; reflexivity|]. right. apply in_map. apply without_in. auto.
    + intros x [<-|Hx]; [right; reflexivity|]. left. apply in_map. apply without_in in Hx. apply Hx.
  - split; [apply uniq_cons; auto|]. split.
    + intros c. cbn [map In]. intuition.
    + intros x [<-|Hx]; [right; reflexivity|]. left. apply in_map. exact Hx.
Qed.

Lemma std_fold_ok l : forall h, uniq h -> uniq (fold_left std_insert l h) /\
  (forall c, In c (map ecls (fold_left std_insert l h)) <-> In c (map ecls h) \/ In c (map ecls l)) /\
  (forall x, In x (fold_left std_insert l h) -> In (snd x) (map snd h) \/ In (snd x) (map snd l)).
Proof.
  induction l as [|e l IH]; intros h HU; cbn [fold_left map].
  - split; [exact HU|]. split; [cbn; intuition|]. intros x Hx. left. apply in_map. exact Hx.
  - destruct (std_insert_ok h e HU) as (H1 & H2 & H3). destruct (IH _ H1) as (H4 & H5 & H6). split; [exact H4|]. split.
    + intros c. rewrite H5, H2. cbn [In]. intuition.
    + intros x Hx. destruct (H6 x Hx) as [Hi|Hi]; [|right; right; exact Hi].
      apply in_map_iff in Hi. destruct Hi as (y & Hy & Hi). rewrite <- Hy. destruct (H3 y Hi) as [|He]; [auto|]. right. left. congruence.
Qed.
Lemma std_of_ok l : uniq (std_of l) /\ (forall c, In c (map ecls (std_of l)) <-> In c (map ecls l)) /\
  (forall x, In x (std_of l) -> In (snd x) (map snd l)).
Proof.
  destruct (std_fold_ok l [] uniq_nil) as (H1 & H2 & H3). split; [exact H1|]. split.
  - intros c. unfold std_of. rewrite H2. cbn. intuition.
  - intros x Hx. destruct (H3 x Hx) as [[]|]. assumption.
Qed.

Lemma std_eqb_ok veqb v l l' : veqb v v = true -> (forall x, In x (map snd l) -> x = v) -> (forall x, In x (map snd l') -> x = v) ->
  (forall c, In c (map ecls l) <-> In c (map ecls l')) -> std_eqb veqb (std_of l) (std_of l') = true.
Proof.
  intros Hv Hl Hl' Hc. destruct (std_of_ok l) as (H1 & H2 & H3). destruct (std_of_ok l') as (H1' & H2' & H3').
  unfold std_eqb. apply andb_true_iff. split.
  - apply Nat.eqb_eq. rewrite <- (map_length ecls (std_of l)), <- (map_length ecls (std_of l')). apply Permutation_length.
    apply NoDup_Permutation; [exact H1|exact H1'|]. intros c. rewrite H2, H2'. apply Hc.
  - apply forallb_forall. intros e He. assert (Hi : In (ecls e) (map ecls (std_of l'))).
    { rewrite H2', <- Hc, <- H2. apply in_map. exact He. }
    apply lookup_classes in Hi. destruct Hi as [e' He']. rewrite He'. apply lookup_in in He'. destruct He' as [Hi _].
    rewrite (Hl (snd e)), (Hl' (snd e')); auto.
Qed.
End Std.

(** * Loops *)
Section Loops.
Context {E : Env} {size : nat} (HK : default_keys size) (Hs : (size <= 4)%nat) {K V : Type} {KK : Key K}.

Definition classes (m : trie K V) : list C := map ecls (map_visit m).

Lemma ins_ok (m : trie K V) k v replace : reachable m ->
  (exists e, replace = false /\ lookup (cls k) (map_visit m) = Some e /\ map_insert (fun x => x) m k v replace = Ret (Err e)) \/
  (exists m' prev, map_insert (fun x => x) m k v replace = Ret (Ok (m', (k, v), prev)) /\ reachable m' /\
     Permutation (map_visit m') ((k, v) :: without (cls k) (map_visit m)) /\ (replace = true \/ lookup (cls k) (map_visit m) = None)).
Proof.
  intros HR. destruct (dk_insert HK Hs (fun x : K => x) m k v replace HR eq_refl) as [r Hr].
  destruct (insert_inv (fun x : K => x) m k v replace r (reachable_mwf _ HR) eq_refl Hr) as [(e & H1 & H2 & ->)|(m' & -> & HW' & HP' & Hrep)].
  - left. exists e. auto.
  - right. exists m', (lookup (cls k) (map_visit m)). split; [exact Hr|]. split; [|auto].
    eapply (reach_insert K V KK K KK); [exact HR| |exact Hr]; reflexivity.
Qed.

Lemma ins_classes (m m' : trie K V) k v : Permutation (map_visit m') ((k, v) :: without (cls k) (map_visit m)) ->
  (forall c, In c (classes m') <-> In c (classes m) \/ c = cls k) /\ (forall e, In e (map_visit m') -> In e (map_visit m) \/ e = (k, v)).
Proof.
  intros HP. split.
  - intros c. unfold classes. rewrite (Permutation_map ecls HP). cbn [map]. change (ecls (k, v)) with (cls k). split.
    + intros [<-|Hi]; [auto|]. left. apply in_map_iff in Hi. destruct Hi as (x & <- & Hx). apply without_in in Hx. apply in_map. apply Hx.
    + intros [Hi| ->]; [|left; reflexivity]. apply in_map_iff in Hi. destruct Hi as (x & <- & Hx).
      destruct (ceqb_spec (ecls x) (cls k)) as [->|Hn]; [left; reflexivity|]. right. apply in_map. apply without_in. auto.
  - intros e He. apply (Permutation_in _ HP) in He. destruct He as [<-|He]; [auto|]. left. apply without_in in He. apply He.
Qed.

Definition filled (m m' : trie K V) l : Prop := reachable m' /\
  (forall c, In c (classes m') <-> In c (classes m) \/ In c (map ecls l)) /\ (forall e, In e (map_visit m') -> In e (map_visit m) \/ In e l).

Lemma filled_nil m : reachable m -> filled m m [].
Proof. intros HR. split; [exact HR|]. split; [intros c; cbn; intuition|auto]. Qed.
Lemma filled_same m m' k v l : In (cls k) (classes m) -> filled m m' l -> filled m m' ((k, v) :: l).
Proof.
  intros Hi (H1 & H2 & H3). split; [exact H1|]. split; [|intros e He; cbn [In]; destruct (H3 e He); auto].
  intros c. rewrite H2. cbn [map In]. change (ecls (k, v)) with (cls k). split; [intuition|]. intros [|[<-|]]; auto.
Qed.
Lemma filled_cons m m1 m' k v l : Permutation (map_visit m1) ((k, v) :: without (cls k) (map_visit m)) -> filled m1 m' l -> filled m m' ((k, v) :: l).
Proof.
  intros HP (H1 & H2 & H3). destruct (ins_classes m m1 k v HP) as [H4 H5]. split; [exact H1|]. split.
  - intros c. rewrite H2, H4. cbn [map In]. change (ecls (k, v)) with (cls k). intuition.
  - intros e He. cbn [In]. destruct (H3 e He) as [Hi|]; [|auto]. destruct (H5 e Hi); auto.
Qed.

Lemma fill_ok l : forall m : trie K V, reachable m -> exists m', fill m l = Ret m' /\ filled m m' l.
Proof using HK Hs.
  induction l as [|[k v] l IH]; intros m HR; cbn [fill]; [exists m; split; [reflexivity|apply filled_nil, HR]|].
  destruct (ins_ok m k v false HR) as [(e & _ & HL & ->)|(m1 & prev & -> & HR1 & HP & _)]; cbn [bind].
  - destruct (IH m HR) as (m' & H1 & H2). exists m'. split; [exact H1|]. apply filled_same; [|exact H2]. apply lookup_classes. eauto.
  - destruct (IH m1 HR1) as (m' & H1 & H2). exists m'. split; [exact H1|]. exact (filled_cons m m1 m' k v l HP H2).
Qed.
Lemma fill_replace_ok l : forall m : trie K V, reachable m -> exists m', fill_unwrap true m l = Ret m' /\ filled m m' l.
Proof using HK Hs.
  induction l as [|[k v] l IH]; intros m HR; cbn [fill_unwrap]; [exists m; split; [reflexivity|apply filled_nil, HR]|].
  destruct (ins_ok m k v true HR) as [(e & H & _)|(m1 & prev & -> & HR1 & HP & _)]; [discriminate|]. cbn [bind unwrap_ok].
  destruct (IH m1 HR1) as (m' & H1 & H2). exists m'. split; [exact H1|]. exact (filled_cons m m1 m' k v l HP H2).
Qed.
Lemma fill_once_ok l : forall m : trie K V, reachable m ->
  (uniq (l ++ map_visit m) /\ exists m', fill_unwrap false m l = Ret m' /\ reachable m' /\ Permutation (map_visit m') (l ++ map_visit m)) \/
  (~ uniq (l ++ map_visit m) /\ fill_unwrap false m l = Panic).
Proof using HK Hs.
  induction l as [|[k v] l IH]; intros m HR; cbn [fill_unwrap].
  - left. split; [apply mwf_uniq, reachable_mwf, HR|]. exists m. auto.
  - destruct (ins_ok m k v false HR) as [(e & _ & HL & ->)|(m1 & prev & -> & HR1 & HP & Hn)]; cbn [bind unwrap_ok].
    + right. split; [|reflexivity]. intros HU. cbn [app] in HU. apply uniq_cons in HU. destruct HU as [HU _].
      rewrite lookup_app in HU. change (ecls (k, v)) with (cls k) in HU. rewrite HL in HU. destruct (lookup (cls k) l); discriminate.
    + destruct Hn as [|Hn]; [discriminate|]. rewrite (without_id _ _ Hn) in HP.
      assert (HQ : Permutation (l ++ map_visit m1) (((k, v) :: l) ++ map_visit m)).
      { rewrite HP. cbn [app]. symmetry. apply Permutation_middle. }
      destruct (IH m1 HR1) as [[HU (m' & H1 & H2 & H3)]|[HU H1]].
      * left. split; [exact (uniq_perm _ _ HQ HU)|]. exists m'. split; [exact H1|]. split; [exact H2|]. rewrite H3. exact HQ.
      * right. split; [|exact H1]. intros H. apply HU. apply (uniq_perm _ _ (Permutation_sym HQ) H).
Qed.

Lemma search_ok (m : trie K V) l : reachable m -> search m l = Ret tt.
Proof.
  intros HR. induction l as [|k l IH]; cbn [search]; [reflexivity|]. destruct (find_total m k HR) as [r ->]. exact IH.
Qed.
Lemma drain_ok l : forall m : trie K V, reachable m -> exists m', drain m l = Ret m' /\ reachable m' /\
  (forall e, In e (map_visit m') <-> In e (map_visit m) /\ ~ In (ecls e) (map cls l)).
Proof using HK Hs.
  induction l as [|k l IH]; intros m HR; cbn [drain]; [exists m; cbn; intuition|].
  destruct (dk_remove HK Hs m k HR) as [r Hr]. rewrite Hr. cbn [bind].
  destruct (remove_inv m k r (reachable_mwf _ HR) Hr) as [(HL & ->)|(m1 & e & HL & -> & HW' & HP)].
  - destruct (IH m HR) as (m' & H1 & H2 & H3). exists m'. split; [exact H1|]. split; [exact H2|]. intros e. rewrite H3. cbn [map In].
    split; [|intuition]. intros [Hi Hn]. split; [exact Hi|]. intros [He|]; [|auto]. symmetry in He. exact (proj1 (lookup_none _ _) HL e Hi He).
  - assert (HR1 : reachable m1) by (eapply (reach_remove K V KK K KK); eassumption).
    destruct (IH m1 HR1) as (m' & H1 & H2 & H3). exists m'. split; [exact H1|]. split; [exact H2|]. intros x. rewrite H3.
    rewrite (Permutation_in' eq_refl HP : In x (map_visit m1) <-> _). rewrite without_in. cbn [map In]. intuition.
Qed.
End Loops.

(** * Loops over sets *)
Section SetLoops.
Context {E : Env} {size : nat} (HK : default_keys size) (Hs : (size <= 4)%nat) {K : Type} {KK : Key K}.

Lemma set_insert_map (s : tset K) k replace : set_insert (fun x => x) s k replace =
  let* r := map_insert (fun x => x) s k tt replace in
  match r with Ok (s', e, prev) => Ret (Ok (s', fst e, option_map fst prev)) | Err e => Ret (Err (fst e)) end.
Proof. unfold set_insert. destruct (map_insert _ s k tt replace) as [[[[s' [k' u]] prev]|[k' u]]| |]; reflexivity. Qed.
Lemma sfill_map l : forall s : tset K, sfill s l = fill s (units l).
Proof.
  induction l as [|k l IH]; intros s; cbn [sfill units map fill]; [reflexivity|]. rewrite set_insert_map.
  destruct (map_insert _ s k tt false) as [[[[s' e] prev]|e]| |]; cbn [bind]; try reflexivity; apply IH.
Qed.
Lemma sfill_unwrap_map replace l : forall s : tset K, sfill_unwrap replace s l = fill_unwrap replace s (units l).
Proof.
  induction l as [|k l IH]; intros s; cbn [sfill_unwrap units map fill_unwrap]; [reflexivity|]. rewrite set_insert_map.
  destruct (map_insert _ s k tt replace) as [[[[s' e] prev]|e]| |]; cbn [bind unwrap_ok]; try reflexivity; apply IH.
Qed.
Lemma sdrain_map l : forall s : tset K, sdrain s l = drain s l.
Proof.
  induction l as [|k l IH]; intros s; cbn [sdrain drain]; [reflexivity|]. unfold set_remove.
  destruct (map_remove s k) as [[[s' [k' u]]|e]| |]; cbn [bind]; try reflexivity; apply IH.
Qed.
Lemma ssearch_ok (s : tset K) l : reachable s -> ssearch s l = Ret tt.
Proof.
  intros HR. induction l as [|k l IH]; cbn [ssearch]; [reflexivity|]. unfold set_find. destruct (find_total s k HR) as [r ->].
  destruct r as [[k' u]|]; exact IH.
Qed.
Lemma units_visit (s : tset K) : units (set_visit s) = map_visit s.
Proof. unfold units, set_visit. rewrite map_map. rewrite <- map_id. apply map_ext. intros [k []]. reflexivity. Qed.
Lemma units_classes (l : list K) : map ecls (units l) = map cls l.
Proof. unfold units. rewrite map_map. reflexivity. Qed.
End SetLoops.

(** * The examples *)
Section Examples.
Context {E : Env} {size : nat} (HK : default_keys size) (Hs : (size <= 4)%nat) {K : Type} {KK : Key K}.

Theorem example_map_passes (insertions searches removals : list K) : example_map insertions searches removals = Ret tt.
Proof using HK Hs.
  unfold example_map. set (l := map (fun k => (k, 66)) insertions).
  destruct (fill_ok HK Hs l map_new (reach_new K N KK)) as (m & -> & HR & Hc & He). cbn [bind].
  rewrite (search_ok m searches HR). cbn [bind].
  assert (Hv : forall x, In x (map snd l) -> x = 66).
  { intros x Hx. unfold l in Hx. rewrite map_map in Hx. cbn [snd] in Hx. apply in_map_iff in Hx. destruct Hx as (_ & <- & _). reflexivity. }
  rewrite (std_eqb_ok N.eqb 66 (map_visit m) l eq_refl).
  - cbn [ensure bind]. destruct (drain_ok HK Hs removals m HR) as (m' & -> & _). reflexivity.
  - intros x Hx. apply in_map_iff in Hx. destruct Hx as (e & <- & Hi). destruct (He e Hi) as [[]|H]. apply Hv, in_map. exact H.
  - exact Hv.
  - intros c. rewrite Hc. cbn. intuition.
Qed.

Lemma unit_values (l : list (K * unit)) (x : unit) : In x (map snd l) -> x = tt.
Proof. destruct x. reflexivity. Qed.

Theorem example_set_passes (insertions searches removals : list K) : example_set insertions searches removals = Ret tt.
Proof using HK Hs.
  unfold example_set. rewrite sfill_map.
  destruct (fill_ok HK Hs (units insertions) map_new (reach_new K unit KK)) as (s & Hf & HR & Hc & He).
  unfold set_new. rewrite Hf. cbn [bind]. rewrite (ssearch_ok s searches HR). cbn [bind]. rewrite units_visit.
  rewrite (std_eqb_ok unit_eqb tt (map_visit s) (units insertions) eq_refl).
  - cbn [ensure bind]. rewrite sdrain_map. destruct (drain_ok HK Hs removals s HR) as (s' & -> & _). reflexivity.
  - apply unit_values.
  - apply unit_values.
  - intros c. rewrite Hc. cbn. intuition.
Qed.

(** Two sets filled from lists, merged so that common keys go. *)
Lemma among_iff k (l : list K) : among k l = true <-> In (cls k) (map cls l).
Proof.
  unfold among. rewrite existsb_exists, in_map_iff. split; intros (x & H1 & H2); exists x; split; try assumption; apply ceqb_eq; assumption.
Qed.
Lemma xored_classes (lefts rights : list K) c :
  In c (map ecls (units (filter (fun x => negb (among x rights)) lefts ++ filter (fun x => negb (among x lefts)) rights))) <->
  (In c (map cls lefts) /\ ~ In c (map cls rights)) \/ (In c (map cls rights) /\ ~ In c (map cls lefts)).
Proof.
  rewrite units_classes, map_app, in_app_iff.
  assert (H : forall a b : list K, In c (map cls (filter (fun x => negb (among x b)) a)) <-> In c (map cls a) /\ ~ In c (map cls b)).
  { intros a b. rewrite !in_map_iff. split.
    - intros (x & <- & Hx). apply filter_In in Hx. destruct Hx as [H1 H2]. split; [eauto|]. intros Hi. apply negb_true_iff in H2.
      assert (among x b = true); [|congruence]. apply among_iff. apply in_map_iff. exact Hi.
    - intros [(x & <- & Hx) Hn]. exists x. split; [reflexivity|]. apply filter_In. split; [exact Hx|]. apply negb_true_iff.
      destruct (among x b) eqn:Ha; [|reflexivity]. exfalso. apply Hn. apply among_iff in Ha. apply in_map_iff in Ha. exact Ha. }
  rewrite !H. reflexivity.
Qed.

Lemma in_classes (m : tset K) c : In c (map ecls (map_visit m)) <-> lookup c (map_visit m) <> None.
Proof. rewrite <- lookup_classes. destruct (lookup c (map_visit m)); split; [discriminate|eauto|intros [e H]; discriminate|congruence]. Qed.

Lemma merge_classes fB fL fR (s r s' : tset K) :
  (forall e e', In e (map_visit s) -> In e' (map_visit r) -> cls (fst e) = cls (fst e') -> fB e e' = None) ->
  (forall e, fL e <> None) -> (forall e, fR e <> None) -> reachable s -> reachable r -> is_merge fB fL fR s r s' ->
  forall c, In c (map ecls (map_visit s')) <->
    (In c (map ecls (map_visit s)) /\ ~ In c (map ecls (map_visit r))) \/ (In c (map ecls (map_visit r)) /\ ~ In c (map ecls (map_visit s))).
Proof.
  intros HB HL HR H1 H2 [H3 H4 _ _] c. pose proof (H4 C (fun c => c) c) as H.
  rewrite !map_find_ok in H by (apply reachable_mwf; assumption). change (cls (Key := fun c => c) c) with c in H.
  rewrite !in_classes. unfold jfound, find_res in H. cbv zeta beta in H.
  destruct (lookup c (map_visit s)) as [e|] eqn:Hl, (lookup c (map_visit r)) as [e'|] eqn:Hr, (lookup c (map_visit s')) as [e''|] eqn:Hs';
    try (intuition congruence); exfalso.
  - apply lookup_in in Hl, Hr. destruct Hl as [Hl Hl'], Hr as [Hr Hr']. unfold ecls in Hl', Hr'. rewrite HB in H by congruence. discriminate.
  - destruct (fL e) eqn:Hf; [discriminate|]. exact (HL e Hf).
  - destruct (fR e') eqn:Hf; [discriminate|]. exact (HR e' Hf).
Qed.

Lemma check_xor_ok fB fL fR (lefts rights : list K) (s r s' : tset K) :
  (forall e e', In e (map_visit s) -> In e' (map_visit r) -> cls (fst e) = cls (fst e') -> fB e e' = None) ->
  (forall e, fL e <> None) -> (forall e, fR e <> None) ->
  filled map_new s (units lefts) -> filled map_new r (units rights) -> is_merge fB fL fR s r s' -> check_xor lefts rights s' = Ret tt.
Proof.
  intros HB HL HR (H1 & H2 & _) (H3 & H4 & _) HM. unfold check_xor, xored. rewrite units_visit, (std_eqb_ok unit_eqb tt); [reflexivity|reflexivity| | |].
  - apply unit_values.
  - apply unit_values.
  - intros c. rewrite (merge_classes fB fL fR s r s' HB HL HR H1 H3 HM), xored_classes.
    specialize (H2 c). specialize (H4 c). unfold classes in H2, H4. rewrite units_classes in H2, H4. rewrite H2, H4. cbn. intuition.
Qed.
End Examples.
