(** Consequences of the refinement for single API calls. *)
From Coq Require Import NArith Arith List Bool Lia ZifyBool ZifyN ZifyNat Permutation.
From Verif Require Import Base Words WordsP Flag FlagP Bia BiaP Node Spec SpecP Inv NodeP InsertP TrieP Api ApiP Reach ReachP.
Import ListNotations.
Open Scope N_scope.

(** Queries may be classes themselves. *)
#[export] Instance key_class {E : Env} : Key C := fun c => c.

Section MapP.
Context {E : Env} {K V : Type} {KK : Key K}.

Lemma insert_inv {Q} {KQ : Key Q} (into : Q -> K) (m : trie K V) q v replace res :
  mwf m -> cls (into q) = cls q -> map_insert into m q v replace = Ret res ->
  (exists e, replace = false /\ lookup (cls q) (map_visit m) = Some e /\ res = Err e) \/
  (exists m', res = Ok (m', (into q, v), lookup (cls q) (map_visit m)) /\ mwf m' /\
     Permutation (map_visit m') ((into q, v) :: without (cls q) (map_visit m)) /\
     (replace = true \/ lookup (cls q) (map_visit m) = None)).
Proof.
  intros HW Hq Hi. pose proof (map_insert_ok into m q v replace HW Hq) as HI.
  destruct (checked && deep m (cls q)); [congruence|]. unfold spec_insert in HI. rewrite Hq in HI.
  destruct (lookup (cls q) (map_visit m)) as [e|] eqn:HL.
  - destruct replace.
    + right. destruct HI as (m' & HI & HW' & HP). exists m'. split; [congruence|]. auto.
    + left. exists e. split; [reflexivity|]. split; [reflexivity|]. congruence.
  - right. destruct HI as (m' & HI & HW' & HP). exists m'. split; [congruence|]. split; [assumption|].
    rewrite without_id by assumption. auto.
Qed.

Lemma remove_inv {Q} {KQ : Key Q} (m : trie K V) (q : Q) res :
  mwf m -> map_remove m q = Ret res ->
  (lookup (cls q) (map_visit m) = None /\ res = Err NotFound) \/
  (exists m' e, lookup (cls q) (map_visit m) = Some e /\ res = Ok (m', e) /\ mwf m' /\
     Permutation (map_visit m') (without (cls q) (map_visit m))).
Proof.
  intros HW Hi. pose proof (map_remove_ok m q HW) as HI.
  destruct (checked && deep m (cls q)); [congruence|]. unfold spec_remove in HI.
  destruct (lookup (cls q) (map_visit m)) as [e|] eqn:HL.
  - right. destruct HI as (m' & HI & HW' & HP). exists m', e. split; [reflexivity|]. split; [congruence|]. auto.
  - left. split; [reflexivity|congruence].
Qed.

Lemma find_res_ok o e : @find_res K V o = Ok e <-> o = Some e.
Proof. destruct o; cbn; split; congruence. Qed.
Lemma find_res_err o : @find_res K V o = Err NotFound <-> o = None.
Proof. destruct o; cbn; split; congruence. Qed.

Lemma find_ok_iff {Q} {KQ : Key Q} (m : trie K V) (q : Q) e : mwf m ->
  map_find m q = Ret (Ok e) <-> lookup (cls q) (map_visit m) = Some e.
Proof. intros H. rewrite (map_find_ok m q H), <- find_res_ok. split; congruence. Qed.

Lemma find_err_iff {Q} {KQ : Key Q} (m : trie K V) (q : Q) : mwf m ->
  map_find m q = Ret (Err NotFound) <-> lookup (cls q) (map_visit m) = None.
Proof. intros H. rewrite (map_find_ok m q H), <- find_res_err. split; congruence. Qed.

Lemma lookup_perm_insert (m m' : trie K V) (k : K) (v : V) c c' : mwf m -> mwf m' -> cls k = c ->
  Permutation (map_visit m') ((k, v) :: without c (map_visit m)) ->
  lookup c' (map_visit m') = if ceqb c c' then Some (k, v) else lookup c' (map_visit m).
Proof.
  intros HW HW' Hk HP. rewrite (lookup_perm _ _ c' (mwf_uniq _ HW') HP), lookup_cons.
  change (ecls (k, v)) with (cls k). rewrite Hk. destruct (ceqb_spec c c'); [reflexivity|].
  apply lookup_without_other. congruence.
Qed.

Lemma lookup_perm_remove (m m' : trie K V) c c' : mwf m -> mwf m' ->
  Permutation (map_visit m') (without c (map_visit m)) ->
  lookup c' (map_visit m') = if ceqb c c' then None else lookup c' (map_visit m).
Proof.
  intros HW HW' HP. rewrite (lookup_perm _ _ c' (mwf_uniq _ HW') HP).
  destruct (ceqb_spec c c') as [->|Hn]; [apply lookup_without_same|]. apply lookup_without_other. congruence.
Qed.

Section Query.
Context {Q : Type} {KQ : Key Q}.

Theorem insert_absent (into : Q -> K) (m : trie K V) q v replace res :
  reachable m -> cls (into q) = cls q ->
  map_find m q = Ret (Err NotFound) -> map_insert into m q v replace = Ret res ->
  exists m', res = Ok (m', (into q, v), None) /\ map_find m' q = Ret (Ok (into q, v)) /\
    (forall Q' (KQ' : Key Q') (q' : Q'), cls q' <> cls q -> map_find m' q' = map_find m q').
Proof.
  intros HR Hq Hf Hi. apply reachable_mwf in HR. apply find_err_iff in Hf; [|assumption].
  destruct (insert_inv _ _ _ _ _ _ HR Hq Hi) as [(e & _ & HL & _)|(m' & -> & HW' & HP & _)]; [congruence|].
  exists m'. rewrite Hf. split; [reflexivity|]. split.
  - apply find_ok_iff; [assumption|]. rewrite (lookup_perm_insert m m' _ _ _ _ HR HW' Hq HP), ceqb_refl. reflexivity.
  - intros Q' KQ' q' Hn. rewrite !map_find_ok by assumption.
    rewrite (lookup_perm_insert m m' _ _ _ _ HR HW' Hq HP). destruct (ceqb_spec (cls q) (cls q')); [congruence|reflexivity].
Qed.

Theorem insert_refused (into : Q -> K) (m : trie K V) q v e res :
  reachable m -> cls (into q) = cls q ->
  map_find m q = Ret (Ok e) -> map_insert into m q v false = Ret res -> res = Err e.
Proof.
  intros HR Hq Hf Hi. apply reachable_mwf in HR. apply find_ok_iff in Hf; [|assumption].
  destruct (insert_inv _ _ _ _ _ _ HR Hq Hi) as [(e' & _ & HL & ->)|(m' & -> & HW' & HP & [|])]; congruence.
Qed.

Theorem insert_replace (into : Q -> K) (m : trie K V) q v res :
  reachable m -> cls (into q) = cls q -> map_insert into m q v true = Ret res ->
  exists m' prev, res = Ok (m', (into q, v), prev) /\
    map_find m q = Ret (match prev with Some e => Ok e | None => Err NotFound end) /\
    map_find m' q = Ret (Ok (into q, v)) /\
    (forall Q' (KQ' : Key Q') (q' : Q'), cls q' <> cls q -> map_find m' q' = map_find m q') /\
    map_size m' = match prev with Some _ => map_size m | None => map_size m + 1 end.
Proof.
  intros HR Hq Hi. apply reachable_mwf in HR.
  destruct (insert_inv _ _ _ _ _ _ HR Hq Hi) as [(e & Hfalse & _)|(m' & -> & HW' & HP & _)]; [discriminate|].
  exists m', (lookup (cls q) (map_visit m)). split; [reflexivity|].
  split; [rewrite (map_find_ok m q HR); destruct (lookup _ _); reflexivity|]. split.
  - apply find_ok_iff; [assumption|]. rewrite (lookup_perm_insert m m' _ _ _ _ HR HW' Hq HP), ceqb_refl. reflexivity.
  - split.
    + intros Q' KQ' q' Hn. rewrite !map_find_ok by assumption.
      rewrite (lookup_perm_insert m m' _ _ _ _ HR HW' Hq HP). destruct (ceqb_spec (cls q) (cls q')); [congruence|reflexivity].
    + rewrite !mwf_size by assumption. apply Permutation_length in HP. cbn [length] in HP.
      destruct (lookup (cls q) (map_visit m)) as [e|] eqn:HL.
      * pose proof (len_without_some _ _ _ (mwf_uniq _ HR) HL). unfold lenN in *. lia.
      * rewrite without_id in HP by assumption. unfold lenN. lia.
Qed.

Theorem remove_exact (m : trie K V) (q : Q) res :
  reachable m -> map_remove m q = Ret res ->
  (res = Err NotFound <-> map_find m q = Ret (Err NotFound)) /\
  (forall m' e, res = Ok (m', e) ->
     map_find m q = Ret (Ok e) /\ map_find m' q = Ret (Err NotFound) /\
     (forall Q' (KQ' : Key Q') (q' : Q'), cls q' <> cls q -> map_find m' q' = map_find m q') /\
     map_size m' + 1 = map_size m).
Proof.
  intros HR Hi. apply reachable_mwf in HR.
  destruct (remove_inv _ _ _ HR Hi) as [(HL & ->)|(m' & e & HL & -> & HW' & HP)].
  - split; [|discriminate]. rewrite find_err_iff by assumption. tauto.
  - split.
    + rewrite find_err_iff by assumption. rewrite HL. split; discriminate.
    + intros m2 e2 H. injection H as <- <-. split; [apply find_ok_iff; assumption|].
      split; [apply find_err_iff; [assumption|]; rewrite (lookup_perm_remove m m' _ _ HR HW' HP), ceqb_refl; reflexivity|].
      split.
      * intros Q' KQ' q' Hn. rewrite !map_find_ok by assumption.
        rewrite (lookup_perm_remove m m' _ _ HR HW' HP). destruct (ceqb_spec (cls q) (cls q')); [congruence|reflexivity].
      * rewrite !mwf_size by assumption. apply Permutation_length in HP.
        pose proof (len_without_some _ _ _ (mwf_uniq _ HR) HL). unfold lenN in *. lia.
Qed.

End Query.

Theorem visit_exact (m : trie K V) : reachable m ->
  (forall Q (KQ : Key Q) (q : Q) e, map_find m q = Ret (Ok e) <-> In e (map_visit m) /\ cls (fst e) = cls q) /\
  NoDup (map (fun e => cls (fst e)) (map_visit m)).
Proof.
  intros HR. apply reachable_mwf in HR. split; [|exact (mwf_uniq _ HR)].
  intros Q KQ q e. rewrite find_ok_iff by assumption. apply lookup_spec. apply mwf_uniq. assumption.
Qed.

Theorem size_exact (m : trie K V) : reachable m ->
  map_size m = N.of_nat (length (map_visit m)) /\
  (exists cs : list C, NoDup cs /\ forall c, In c cs <-> exists e, map_find m c = Ret (Ok e)) /\
  (forall cs : list C, NoDup cs -> (forall c, In c cs <-> exists e, map_find m c = Ret (Ok e)) ->
     map_size m = N.of_nat (length cs)).
Proof.
  intros HR. destruct (visit_exact m HR) as (HV & HN). apply reachable_mwf in HR.
  assert (HI : forall c, In c (map (fun e => cls (fst e)) (map_visit m)) <-> exists e, map_find m c = Ret (Ok e)).
  { intros c. rewrite in_map_iff. split.
    - intros (e & He & Hin). exists e. apply HV. auto.
    - intros (e & He). apply HV in He. exists e. tauto. }
  split; [apply mwf_size; assumption|]. split; [eexists; split; [exact HN|exact HI]|].
  intros cs Hcs Hc. rewrite mwf_size by assumption. unfold lenN. f_equal.
  rewrite <- (map_length (fun e => cls (fst e))). apply Permutation_length.
  apply NoDup_Permutation; try assumption. intros c. rewrite HI, Hc. reflexivity.
Qed.

(** Totality and panics. *)
Section Total.
Context {Q : Type} {KQ : Key Q}.

Theorem find_total (m : trie K V) (q : Q) : reachable m -> exists r, map_find m q = Ret r.
Proof. intros HR. eexists. apply map_find_ok. apply reachable_mwf. assumption. Qed.

Theorem insert_total_iff (into : Q -> K) (m : trie K V) q v replace :
  reachable m -> cls (into q) = cls q ->
  (map_insert into m q v replace = Panic /\ checked = true /\ deep m (cls q) = true) \/
  ((exists r, map_insert into m q v replace = Ret r) /\ (checked = false \/ deep m (cls q) = false)).
Proof.
  intros HR Hq. apply reachable_mwf in HR. pose proof (map_insert_ok into m q v replace HR Hq) as HI.
  destruct (checked && deep m (cls q)) eqn:Hd.
  - left. apply andb_true_iff in Hd. tauto.
  - right. apply andb_false_iff in Hd. split; [|assumption].
    destruct (spec_insert _ _ _ _) as [[l p]|e]; [destruct HI as (m' & HI & _)|]; eexists; exact HI.
Qed.

Theorem remove_total_iff (m : trie K V) (q : Q) :
  reachable m ->
  (map_remove m q = Panic /\ checked = true /\ deep m (cls q) = true) \/
  ((exists r, map_remove m q = Ret r) /\ (checked = false \/ deep m (cls q) = false)).
Proof.
  intros HR. apply reachable_mwf in HR. pose proof (map_remove_ok m q HR) as HI.
  destruct (checked && deep m (cls q)) eqn:Hd.
  - left. apply andb_true_iff in Hd. tauto.
  - right. apply andb_false_iff in Hd. split; [|assumption].
    destruct (spec_remove _ _) as [[l p]|]; [destruct HI as (m' & HI & _)|]; eexists; exact HI.
Qed.

Theorem release_total (into : Q -> K) (m : trie K V) q v replace :
  checked = false -> reachable m -> cls (into q) = cls q ->
  (exists r, map_find m q = Ret r) /\ (exists r, map_insert into m q v replace = Ret r) /\
  (exists r, map_remove m q = Ret r).
Proof.
  intros Hc HR Hq. split; [apply find_total; assumption|]. split.
  - destruct (insert_total_iff into m q v replace HR Hq) as [(_ & H & _)|[H _]]; [congruence|assumption].
  - destruct (remove_total_iff m q HR) as [(_ & H & _)|[H _]]; [congruence|assumption].
Qed.

(** Same observations. *)
Definition same (m n : trie K V) : Prop :=
  (forall Q' (KQ' : Key Q') (q : Q'), map_find m q = map_find n q) /\
  map_size m = map_size n /\ Permutation (map_visit m) (map_visit n).

Lemma same_perm m n : mwf m -> mwf n -> Permutation (map_visit m) (map_visit n) -> same m n.
Proof.
  intros Hm Hn HP. split; [|split; [|assumption]].
  - intros Q' KQ' q. rewrite !map_find_ok by assumption. rewrite (lookup_perm _ _ _ (mwf_uniq _ Hm) HP). reflexivity.
  - rewrite !mwf_size by assumption. unfold lenN. rewrite (Permutation_length HP). reflexivity.
Qed.

Lemma same_lookup m n : mwf m -> mwf n ->
  (forall c : C, map_find m c = map_find n c) -> same m n.
Proof.
  intros Hm Hn Hf. apply same_perm; try assumption. apply lookup_ext_perm; try (apply mwf_uniq; assumption).
  intros c. specialize (Hf c). rewrite !map_find_ok in Hf by assumption.
  change (cls c) with c in Hf.
  destruct (lookup c (map_visit m)), (lookup c (map_visit n)); cbn in Hf; congruence.
Qed.

Theorem insert_remove_inverse (into : Q -> K) (m : trie K V) q v replace m1 e prev res :
  reachable m -> cls (into q) = cls q -> map_find m q = Ret (Err NotFound) ->
  map_insert into m q v replace = Ret (Ok (m1, e, prev)) -> map_remove m1 q = Ret res ->
  exists m2, res = Ok (m2, (into q, v)) /\ same m2 m.
Proof.
  intros HR Hq Hf Hi Hr. apply reachable_mwf in HR. apply find_err_iff in Hf; [|assumption].
  destruct (insert_inv _ _ _ _ _ _ HR Hq Hi) as [(e' & _ & HL & _)|(m' & He & HW' & HP & _)]; [congruence|].
  injection He as <- _ _. rewrite without_id in HP by assumption.
  assert (HL1 : lookup (cls q) (map_visit m1) = Some (into q, v)).
  { rewrite (lookup_perm _ _ _ (mwf_uniq _ HW') HP), lookup_cons. change (ecls (into q, v)) with (cls (into q)).
    rewrite Hq, ceqb_refl. reflexivity. }
  destruct (remove_inv _ _ _ HW' Hr) as [(HL & _)|(m2 & e2 & HL & -> & HW2 & HP2)]; [congruence|].
  exists m2. split; [congruence|]. apply same_perm; try assumption. rewrite HP2, (without_perm _ _ _ HP), without_cons.
  change (ecls (into q, v)) with (cls (into q)). rewrite Hq, ceqb_refl, without_id by assumption. reflexivity.
Qed.

Theorem remove_insert_inverse (into : Q -> K) (m : trie K V) q v replace m1 res :
  reachable m -> cls (into q) = cls q ->
  map_remove m q = Ret (Ok (m1, (into q, v))) -> map_insert into m1 q v replace = Ret res ->
  exists m2, res = Ok (m2, (into q, v), None) /\ same m2 m.
Proof.
  intros HR Hq Hr Hi. apply reachable_mwf in HR.
  destruct (remove_inv _ _ _ HR Hr) as [(HL & He)|(m' & e & HL & He & HW' & HP)]; [discriminate|].
  injection He as <- <-.
  assert (HL1 : lookup (cls q) (map_visit m1) = None).
  { rewrite (lookup_perm_remove m m1 _ _ HR HW' HP), ceqb_refl. reflexivity. }
  destruct (insert_inv _ _ _ _ _ _ HW' Hq Hi) as [(e' & _ & HL' & _)|(m2 & -> & HW2 & HP2 & _)]; [congruence|].
  exists m2. rewrite HL1. split; [reflexivity|]. apply same_perm; try assumption.
  rewrite HP2, without_id by assumption. rewrite HP. symmetry.
  apply lookup_perm_cons_without; [apply mwf_uniq|]; assumption.
Qed.

Theorem insert_returns_stored (into : Q -> K) (m : trie K V) q v replace m' e prev :
  reachable m -> cls (into q) = cls q -> map_insert into m q v replace = Ret (Ok (m', e, prev)) ->
  e = (into q, v) /\ map_find m' q = Ret (Ok e) /\ map_find m' (into q) = Ret (Ok e).
Proof.
  intros HR Hq Hi. apply reachable_mwf in HR.
  destruct (insert_inv _ _ _ _ _ _ HR Hq Hi) as [(e' & _ & _ & He)|(m2 & He & HW' & HP & _)]; [discriminate|].
  injection He as <- -> ->. split; [reflexivity|].
  split; apply find_ok_iff; try assumption;
    rewrite (lookup_perm_insert m m' _ _ _ _ HR HW' Hq HP), ?Hq, ceqb_refl; reflexivity.
Qed.

Lemma m_remove_empty_new (m : trie K V) (q : Q) m' e :
  reachable m -> map_remove m q = Ret (Ok (m', e)) -> map_visit m' = [] -> m' = map_new.
Proof.
  intros HR Hr Hv. apply reachable_mwf in HR. revert Hr. unfold map_remove. rewrite flag_new_ok. cbn [bind].
  assert (HW : wf 0 (pre 0 (hashk q)) m) by (rewrite pre_0; exact HR).
  pose proof (m_remove_ok m 0 q _ HW (flag_for_0 _)) as HI.
  destruct (checked && hits 0 (hashk q) m); [rewrite HI; discriminate|].
  destruct HI as (r & -> & Hi). cbn [bind]. unfold rem_ok in Hi.
  destruct r; intros H; try discriminate; injection H as <- <-; try reflexivity; cbn [rnode] in Hi; unfold map_visit in Hv; tauto.

Qed.

Theorem remove_last (m : trie K V) (q : Q) m' e :
  reachable m -> map_size m = 1 -> map_remove m q = Ret (Ok (m', e)) ->
  m' = map_new /\ map_size m' = 0 /\ map_visit m' = [] /\
  forall Q' (KQ' : Key Q') (q' : Q'), map_find m' q' = Ret (Err NotFound).
Proof.
  intros HR Hs Hr.
  destruct (remove_exact m q _ HR Hr) as (_ & Hx). destruct (Hx _ _ eq_refl) as (_ & _ & _ & Hsz).
  assert (HR' : reachable m') by (eapply reach_remove; eassumption).
  pose proof (reachable_mwf _ HR') as HW'.
  assert (Hv : map_visit m' = []).
  { rewrite (mwf_size _ HW') in Hsz. unfold lenN in Hsz. destruct (map_visit m'); [reflexivity|]. cbn in Hsz. lia. }
  split; [exact (m_remove_empty_new m q m' e HR Hr Hv)|]. split; [lia|]. split; [assumption|].
  intros Q' KQ' q'. apply find_err_iff; [assumption|]. rewrite Hv. reflexivity.
Qed.

End Total.
End MapP.
