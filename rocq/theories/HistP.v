(** Histories on the trie refine histories on association lists. *)
From Coq Require Import NArith Arith List Bool Lia ZifyBool ZifyN ZifyNat Permutation.
From Verif Require Import Base Words Flag Bia BiaP Node Spec SpecP Inv Api ApiP Reach ReachP MapP Hist.
Import ListNotations.
Open Scope N_scope.

Section HistP.
Context {E : Env} {K V : Type} {KK : Key K}.

Lemma step_ok (m : trie K V) l o : reachable m -> Permutation (map_visit m) l ->
  (step m o = Panic /\ checked = true) \/
  exists m', step m o = Ret (m', snd (spec_step l o)) /\ reachable m' /\ Permutation (map_visit m') (fst (spec_step l o)).
Proof.
  intros HR HP. pose proof (reachable_mwf _ HR) as HW. pose proof (mwf_uniq _ HW) as HU.
  destruct o as [k v replace|k|k]; cbn [step spec_step].
  - unfold spec_insert. rewrite <- (lookup_perm _ _ (cls k) HU HP).
    destruct (insert_total_iff (fun x : K => x) m k v replace HR eq_refl) as [(Hp & Hc & _)|[[r Hr] _]].
    { left. rewrite Hp. auto. }
    right. rewrite Hr. cbn [bind].
    destruct (insert_inv (fun x : K => x) m k v replace r HW eq_refl Hr)
      as [(e & -> & HL & ->)|(m' & -> & HW' & HP' & Hrep)].
    + rewrite HL. cbn [fst snd]. exists m. auto.
    + assert (HR' : reachable m') by (eapply (reach_insert K V KK K KK); [exact HR| |exact Hr]; reflexivity).
      destruct (lookup (cls k) (map_visit m)) as [e|] eqn:HL.
      * destruct Hrep as [->|]; [|discriminate]. cbn [fst snd]. exists m'. split; [reflexivity|]. split; [assumption|].
        rewrite HP'. constructor. apply without_perm. assumption.
      * cbn [fst snd]. exists m'. split; [reflexivity|]. split; [assumption|].
        rewrite HP', without_id by assumption. constructor. assumption.
  - unfold spec_remove. rewrite <- (lookup_perm _ _ (cls k) HU HP).
    destruct (remove_total_iff m k HR) as [(Hp & Hc & _)|[[r Hr] _]].
    { left. rewrite Hp. auto. }
    right. rewrite Hr. cbn [bind].
    destruct (remove_inv m k r HW Hr) as [(HL & ->)|(m' & e & HL & -> & HW' & HP')]; rewrite HL; cbn [fst snd].
    + exists m. auto.
    + exists m'. split; [reflexivity|]. split; [eapply (reach_remove K V KK K KK); eassumption|].
      rewrite HP'. apply without_perm. assumption.
  - right. rewrite <- (lookup_perm _ _ (cls k) HU HP). rewrite (map_find_ok m k HW). cbn [bind].
    exists m. destruct (lookup (cls k) (map_visit m)); cbn [find_res fst snd]; auto.
Qed.

Theorem run_ok os : forall (m : trie K V) l, reachable m -> Permutation (map_visit m) l ->
  (run m os = Panic /\ checked = true) \/
  exists m', run m os = Ret (m', snd (spec_run l os)) /\ reachable m' /\ Permutation (map_visit m') (fst (spec_run l os)).
Proof.
  induction os as [|o os IH]; intros m l HR HP; cbn [run spec_run].
  - right. exists m. auto.
  - destruct (step_ok m l o HR HP) as [(Hp & Hc)|(m1 & H1 & HR1 & HP1)]; [left; rewrite Hp; auto|].
    rewrite H1. cbn [bind]. destruct (spec_step l o) as [l1 x]. cbn [fst snd] in *.
    destruct (IH m1 l1 HR1 HP1) as [(Hp & Hc)|(m2 & H2 & HR2 & HP2)]; [left; rewrite Hp; auto|].
    right. rewrite H2. cbn [bind]. destruct (spec_run l1 os) as [l2 xs]. cbn [fst snd] in *. exists m2. auto.
Qed.

(** Histories from the empty map. *)
Theorem history_refines (os : list (op K V)) :
  (run map_new os = Panic /\ checked = true) \/
  exists m, run map_new os = Ret (m, snd (spec_run [] os)) /\
    (forall Q (KQ : Key Q) (q : Q),
       map_find m q = Ret (match lookup (cls q) (fst (spec_run [] os)) with Some e => Ok e | None => Err NotFound end)) /\
    map_size m = N.of_nat (length (fst (spec_run [] os))) /\
    Permutation (map_visit m) (fst (spec_run [] os)).
Proof.
  destruct (run_ok os (map_new (V := V)) [] (reach_new K V KK)) as [H|(m & Hm & HR & HP)].
  - constructor.
  - left. exact H.
  - right. exists m. apply reachable_mwf in HR. split; [exact Hm|]. split.
    + intros Q KQ q. rewrite (map_find_ok m q HR). rewrite (lookup_perm _ _ _ (mwf_uniq _ HR) HP). reflexivity.
    + split; [|exact HP]. rewrite (mwf_size _ HR). unfold lenN. rewrite (Permutation_length HP). reflexivity.
Qed.

(** Observations depend only on the contents. *)
Theorem history_independent (os os' : list (op K V)) m m' xs xs' :
  run map_new os = Ret (m, xs) -> run map_new os' = Ret (m', xs') ->
  (forall c, lookup c (fst (spec_run [] os)) = lookup c (fst (spec_run (V := V) [] os'))) -> same m m'.
Proof.
  intros Hr Hr' Hl.
  destruct (run_ok os (map_new (V := V)) [] (reach_new K V KK)) as [[H _]|(m1 & Hm & HR & HP)]; [constructor|congruence|].
  destruct (run_ok os' (map_new (V := V)) [] (reach_new K V KK)) as [[H _]|(m1' & Hm' & HR' & HP')]; [constructor|congruence|].
  rewrite Hr in Hm. injection Hm as <- _. rewrite Hr' in Hm'. injection Hm' as <- _.
  apply reachable_mwf in HR, HR'. apply same_perm; try assumption.
  assert (HU : uniq (fst (spec_run (V := V) [] os))) by (eapply uniq_perm; [exact HP|apply mwf_uniq; assumption]).
  assert (HU' : uniq (fst (spec_run (V := V) [] os'))) by (eapply uniq_perm; [exact HP'|apply mwf_uniq; assumption]).
  rewrite HP, HP'. apply lookup_ext_perm; assumption.
Qed.

(** Inserting any list of pairwise different keys, whatever their hashes. *)
Definition insert_all (es : list (K * V)) : list (op K V) := map (fun e => OInsert (fst e) (snd e) false) es.

Lemma spec_insert_all es : forall l : list (K * V), uniq (l ++ es) -> fst (spec_run l (insert_all es)) = rev es ++ l.
Proof.
  induction es as [|[k v] es IH]; intros l HU; cbn [insert_all map spec_run]; [reflexivity|].
  cbn [spec_step fst snd]. unfold spec_insert.
  assert (HL : lookup (cls k) l = None).
  { apply uniq_app_inv in HU. destruct HU as (_ & _ & Hd). apply lookup_none. intros e He.
    apply (Hd e (k, v) He). left. reflexivity. }
  rewrite HL. specialize (IH ((k, v) :: l)). unfold insert_all in IH.
  destruct (spec_run _ _) as [l2 xs]. cbn [fst] in *. rewrite IH.
  - cbn [rev]. rewrite <- app_assoc. reflexivity.
  - eapply uniq_perm; [|exact HU]. symmetry. cbn [app]. apply Permutation_middle.
Qed.

Theorem collisions_exact (es : list (K * V)) :
  checked = false -> NoDup (map (fun e => cls (fst e)) es) ->
  exists m xs, run map_new (insert_all es) = Ret (m, xs) /\
    Permutation (map_visit m) es /\ map_size m = N.of_nat (length es) /\
    (forall Q (KQ : Key Q) (q : Q) e, map_find m q = Ret (Ok e) <-> In e es /\ cls (fst e) = cls q) /\
    (forall q e, In e es -> cls q = cls (fst e) -> exists m', map_remove m q = Ret (Ok (m', e)) /\
       Permutation (e :: map_visit m') es).
Proof.
  intros Hc HU. pose proof (spec_insert_all es [] HU) as Hs.
  destruct (run_ok (insert_all es) (map_new (V := V)) [] (reach_new K V KK)) as [[_ H]|(m & Hm & HR & HP)];
    [constructor|congruence|].
  rewrite Hs, app_nil_r in HP. rewrite <- (Permutation_rev es) in HP.
  destruct (visit_exact m HR) as (HV & _). pose proof (reachable_mwf _ HR) as HW.
  exists m. eexists. split; [exact Hm|]. split; [exact HP|]. split.
  { rewrite (mwf_size _ HW). unfold lenN. rewrite (Permutation_length HP). reflexivity. }
  split.
  { intros Q KQ q e. rewrite HV. split; intros [H1 H2]; (split; [|assumption]).
    - eapply Permutation_in; eassumption.
    - eapply Permutation_in; [symmetry|]; eassumption. }
  intros q e He Hq.
  assert (HL : lookup (cls q) (map_visit m) = Some e).
  { apply lookup_spec; [apply mwf_uniq; assumption|]. split; [|symmetry; assumption].
    eapply Permutation_in; [symmetry|]; eassumption. }
  destruct (remove_total_iff m q HR) as [(_ & Hx & _)|[[r Hr] _]]; [congruence|].
  destruct (remove_inv m q r HW Hr) as [(HL' & _)|(m' & e' & HL' & -> & HW' & HP')]; [congruence|].
  exists m'. split; [congruence|]. rewrite HP', <- HP. symmetry.
  apply lookup_perm_cons_without; [apply mwf_uniq|]; assumption.
Qed.

End HistP.
