(** The tests of joint operations, and the README. *)
From Coq Require Import NArith ZArith Arith List Bool Lia ZifyBool ZifyN ZifyNat Permutation.
From Verif Require Import Base Words Flag FlagP Bia Node Api ApiP Spec SpecP Inv NodeP Trans Transform SpecT LoopP Joint JointT SpecJ Reach ReachP
  MapP TransMapP JointMapP JointTApiP JointTMapP Sets SetP SpecS Depth Fnv FnvP FnvMapP Progs ProgsP I32 I32P Brackets BracketP BracketSP.
Import ListNotations.
Open Scope N_scope.

(** * set_xor.rs *)
Section Xor.
Context {E : Env} {size : nat} (HK : default_keys size) (Hs : (size <= 4)%nat) {K : Type} {KK : Key K}.

Lemma sfill_new (l : list K) : exists s, sfill set_new l = Ret s /\ filled map_new s (units l).
Proof using HK Hs. rewrite sfill_map. exact (fill_ok HK Hs (units l) map_new (reach_new K unit KK)). Qed.
Lemma keeps_same {R} (f : K -> R) (s : tset K) : m_keeps (mcall (transmute_of (SMGeneric (fun k => SKTransmuted k (f k))))) (map_visit s).
Proof. intros e k v r _ [= <- _ _]. reflexivity. Qed.

Theorem xor_tt_passes st (lefts rights : list K) : xor_tt st lefts rights = Ret tt.
Proof using HK Hs.
  unfold xor_tt. destruct (sfill_new lefts) as (s & -> & Hfs). destruct (sfill_new rights) as (r & -> & Hfr). cbn [bind]. unfold set_tt.
  destruct (dk_tt HK Hs tt (fun _ _ => tt) st (joint_of (SJRemoved tt)) (transform_of (STUnchanged tt)) (transform_of (STUnchanged tt)) s r (proj1 Hfs) (proj1 Hfr))
    as (m' & x & o & -> & _ & H). cbn [bind]. destruct (H (fun h => h)) as (fB & HM & HB).
  refine (check_xor_ok fB _ _ lefts rights s r m' _ _ _ Hfs Hfr HM); [|discriminate..].
  intros e e' He He' Hc. exact (HB e e' He He' Hc).
Qed.
Theorem xor_tm_passes st (lefts rights : list K) : xor_tm st lefts rights = Ret tt.
Proof using HK Hs.
  unfold xor_tm. destruct (sfill_new lefts) as (s & -> & Hfs). destruct (sfill_new rights) as (r & -> & Hfr). cbn [bind]. unfold set_tm.
  edestruct (dk_tm HK Hs tt (fun _ _ => tt) st (both_transform_of (STRemoved tt)) (transform_of (STUnchanged tt))
    (transmute_of (SMGeneric (fun r => SKTransmuted r tt))) s r (proj1 Hfs) (proj1 Hfr) (keeps_same _ r)) as (m' & x & o & -> & _ & HM). cbn [bind].
  refine (check_xor_ok _ _ _ lefts rights s r m' _ _ _ Hfs Hfr HM); [reflexivity|discriminate..].
Qed.
Theorem xor_mt_passes st (lefts rights : list K) : xor_mt st lefts rights = Ret tt.
Proof using HK Hs.
  unfold xor_mt. destruct (sfill_new lefts) as (s & -> & Hfs). destruct (sfill_new rights) as (r & -> & Hfr). cbn [bind]. unfold set_mt.
  edestruct (dk_mt HK Hs tt (fun _ _ => tt) st (both_transform_of (STRemoved tt)) (transmute_of (SMGeneric (fun l => SKTransmuted l tt)))
    (transform_of (STUnchanged tt)) s r (proj1 Hfs) (proj1 Hfr) (keeps_same _ s)) as (m' & x & o & -> & _ & HM). cbn [bind].
  refine (check_xor_ok _ _ _ lefts rights s r m' _ _ _ Hfs Hfr HM); [reflexivity|discriminate..].
Qed.
Theorem xor_mm_passes (lefts rights : list K) : xor_mm lefts rights = Ret tt.
Proof using HK Hs.
  unfold xor_mm. destruct (sfill_new lefts) as (s & -> & Hfs). destruct (sfill_new rights) as (r & -> & Hfr). cbn [bind]. unfold set_mm.
  edestruct (dk_mm HK Hs tt (fun _ _ => tt) (both_transmute_of (SMRemoved tt)) (transmute_of (SMGeneric (fun l => SKTransmuted l tt)))
    (transmute_of (SMGeneric (fun r => SKTransmuted r tt))) s r (proj1 Hfs) (proj1 Hfr)) as (m' & x & -> & _ & HM).
  { intros e e' k v r0 _ _ _ [=]. } { apply keeps_same. } { apply keeps_same. } cbn [bind].
  refine (check_xor_ok _ _ _ lefts rights s r m' _ _ _ Hfs Hfr HM); [reflexivity|discriminate..].
Qed.
End Xor.

(** * README.md *)
Section Readme.
Context {E : Env} {K Q : Type} {KK : Key K} {KQ : Key Q} (into : Q -> K) (q : Q) (Hq : cls (into q) = cls q).

Lemma first_insert {V} (v : V) : exists m prev, map_insert into map_new q v false = Ret (Ok (m, (into q, v), prev)) /\ reachable m /\
  map_visit m = [(into q, v)] /\ deep m (cls q) = false.
Proof using Hq.
  destruct (fresh_hash_no_panic into map_new q v false (reach_new K V KK) Hq) as [[r Hr] _]; [intros e []|].
  destruct (insert_inv into map_new q v false r (reachable_mwf _ (reach_new K V KK)) Hq Hr) as [(e & _ & H & _)|(m & -> & HW & HP & _)]; [discriminate|].
  exists m. eexists. split; [exact Hr|]. split; [|split].
  - eapply (reach_insert K V KK Q KQ); [apply reach_new|exact Hq|exact Hr].
  - apply Permutation_sym, Permutation_length_1_inv in HP. exact HP.
  - pose proof off_1_lt as Ho. apply (shallow_hits (hbits - 1)); [lia|]. revert Hr. unfold map_insert. rewrite flag_new_ok. cbn [bind].
    destruct (m_insert map_new q (into q) v _ false) as [r0| |] eqn:Hr0; try discriminate. cbn [bind]. intros Hi.
    apply (@m_insert_shallow E K V KK (hbits - 1) ltac:(lia) ltac:(lia) Q KQ map_new 0 q (into q) v _ false r0 m) in Hr0; [exact Hr0|..].
    + apply shallow_new. lia.
    + rewrite pre_0. apply reachable_mwf. apply reach_new.
    + intros e [].
    + unfold hashk. rewrite Hq. apply flag_for_0.
    + destruct r0; inversion Hi; reflexivity.
Qed.

Theorem readme_passes : exists s, readme into q = Ret s /\ set_size s = 0.
Proof using Hq.
  destruct (first_insert tt) as (m & prev & H1 & HR & HV & Hd). unfold readme, set_insert. unfold set_new. rewrite H1. cbn [bind unwrap_ok].
  assert (HL : lookup (cls q) (map_visit m) = Some (into q, tt)).
  { rewrite HV, lookup_cons. unfold ecls. cbn [fst]. rewrite Hq, ceqb_refl. reflexivity. }
  assert (HI : forall replace, exists r, map_insert into m q tt replace = Ret r).
  { intros replace. destruct (insert_total_iff into m q tt replace HR Hq) as [(_ & _ & H)|[H _]]; [congruence|exact H]. }
  destruct (HI false) as [r Hr]. rewrite Hr.
  destruct (insert_inv into m q tt false r (reachable_mwf _ HR) Hq Hr) as [(e & _ & He & ->)|(m' & -> & _ & _ & [|H])]; [|discriminate|congruence].
  rewrite HL in He. injection He as <-. cbn [bind unwrap_err fst]. rewrite Hq, ceqb_refl. cbn [ensure bind].
  destruct (HI true) as [r2 Hr2]. rewrite Hr2.
  destruct (insert_inv into m q tt true r2 (reachable_mwf _ HR) Hq Hr2) as [(e & [=] & _)|(m' & -> & _)]. cbn [bind is_ok ensure].
  unfold set_find. rewrite (map_find_ok m q (reachable_mwf _ HR)), HL. cbn [bind find_res unwrap_ok fst]. rewrite Hq, ceqb_refl. cbn [ensure bind].
  unfold set_remove. destruct (remove_total_iff m q HR) as [(_ & _ & H)|[[r3 Hr3] _]]; [congruence|]. rewrite Hr3.
  destruct (remove_inv m q r3 (reachable_mwf _ HR) Hr3) as [(H & _)|(m3 & e & _ & -> & HW & HP)]; [congruence|]. cbn [bind unwrap_ok].
  destruct e as [k u]. cbn [bind]. eexists. split; [reflexivity|].
  unfold set_size. rewrite (mwf_size m3 HW). rewrite HV, without_cons in HP. unfold ecls in HP. cbn [fst] in HP.
  rewrite Hq, ceqb_refl in HP.
  apply Permutation_sym, Permutation_nil in HP. rewrite HP. reflexivity.
Qed.
End Readme.

(** * The tests *)
Section Joint.
Context {E : Env} {size : nat} (HK : default_keys size) (Hs : (size <= 4)%nat) {K V R : Type} {KK : Key K}.
Context (zero : R) (add : R -> R -> R) (HM : monoid zero add) (HC : forall a b, add a b = add b a).
Context (w : K * V -> R) (p : K * V -> K * V -> R) (h : K * V -> kres K V R) (Ht : forall e, m_to (h e) = Some e) (Hr : forall e, m_red (h e) = w e).

Lemma merged_ext (fB : K * V -> K * V -> option (K * V)) fL fR gL gR (ln lr : list (K * V)) :
  (forall e e', In e ln -> In e' lr -> cls (fst e) = cls (fst e') -> fB e e' = None) -> (forall e, fL e = gL e) -> (forall e, fR e = gR e) ->
  merged_entries fB fL fR ln lr = merged_entries (fun _ _ => None) gL gR ln lr.
Proof.
  intros HB HL HR. unfold merged_entries, merge. f_equal; [|apply flat_map_ext; intros e; rewrite HR; reflexivity].
  assert (H : forall l, (forall e, In e l -> In e ln) ->
    flat_map (fun e => match lookup (ecls e) lr with Some e' => opt (fB e e') | None => opt (fL e) end) l =
    flat_map (fun e => match lookup (ecls e) lr with Some e' => opt None | None => opt (gL e) end) l); [|apply H; auto].
  induction l as [|e l IH]; intros Hi; [reflexivity|]. cbn [flat_map]. rewrite IH by (intros; apply Hi; right; assumption). f_equal.
  destruct (lookup (ecls e) lr) as [e'|] eqn:Hl; [|rewrite HL; reflexivity]. apply lookup_in in Hl. destruct Hl as [Hl Hc].
  rewrite HB; [reflexivity|apply Hi; left; reflexivity|exact Hl|symmetry; exact Hc].
Qed.
Lemma reds_ext (rB sB : K * V -> K * V -> R) rL sL rR sR ln lr : (forall e e', rB e e' = sB e e') -> (forall e, rL e = sL e) -> (forall e, rR e = sR e) ->
  merged_reds rB rL rR ln lr = merged_reds sB sL sR ln lr.
Proof.
  intros HB HL HR. unfold merged_reds, merge. f_equal; apply flat_map_ext; intros e; [|rewrite HR; reflexivity].
  destruct (lookup (ecls e) lr); rewrite ?HB, ?HL; reflexivity.
Qed.

Lemma keeps_h l : m_keeps h l.
Proof using Ht. intros e k v r _ H. pose proof (Ht e) as He. rewrite H in He. injection He as <-. reflexivity. Qed.

Definition meets (a b m : trie K V) : Prop := reachable m /\
  Permutation (map_visit m) (merged_entries (fun _ _ => None) Some Some (map_visit a) (map_visit b)).
Theorem joint_agree st (a b : trie K V) : reachable a -> reachable b ->
  exists ff fm mf mm r o o' o'',
    map_tt zero add st (JGeneric (fun e e' => BDropped (p e e')) false) (TGeneric (fun e => VUnchanged (w e))) (TGeneric (fun e => VUnchanged (w e))) a b = Ret (ff, r, o) /\
    map_tm zero add st (TGeneric (fun x => VDropped (p (fst x) (snd x)))) (TGeneric (fun e => VUnchanged (w e))) (MGeneric h) a b = Ret (fm, r, o') /\
    map_mt zero add st (TGeneric (fun x => VDropped (p (fst x) (snd x)))) (MGeneric h) (TGeneric (fun e => VUnchanged (w e))) a b = Ret (mf, r, o'') /\
    map_mm (S := K) (X := V) zero add (MGeneric (fun x => KDropped (p (fst x) (snd x)))) (MGeneric h) (MGeneric h) a b = Ret (mm, r) /\
    meets a b ff /\ meets a b fm /\ meets a b mf /\ meets a b mm.
Proof using HK Hs HM HC Ht Hr.
  intros HRa HRb.
  destruct (dk_tt HK Hs zero add st (JGeneric (fun e e' => BDropped (p e e')) false) (TGeneric (fun e => VUnchanged (w e))) (TGeneric (fun e => VUnchanged (w e))) a b HRa HRb)
    as (ff & r & o & H1 & HR1 & HF). destruct (HF (fun x => x)) as (fB & HM1 & HB). clear HF.
  destruct (dk_tm HK Hs zero add st (TGeneric (fun x => VDropped (p (fst x) (snd x)))) (TGeneric (fun e => VUnchanged (w e))) (MGeneric h) a b HRa HRb (keeps_h _))
    as (fm & r2 & o2 & H2 & HR2 & HM2).
  destruct (dk_mt HK Hs zero add st (TGeneric (fun x => VDropped (p (fst x) (snd x)))) (MGeneric h) (TGeneric (fun e => VUnchanged (w e))) a b HRa HRb (keeps_h _))
    as (mf & r3 & o3 & H3 & HR3 & HM3).
  destruct (dk_mm HK Hs (S := K) (X := V) zero add (MGeneric (fun x => KDropped (p (fst x) (snd x)))) (MGeneric h) (MGeneric h) a b HRa HRb) as (mm & r4 & H4 & HR4 & HM4);
    [intros e e' k v x _ _ _ [=]|apply keeps_h|apply keeps_h|].
  pose proof (tt_reduction zero add st _ _ _ a b ff r o HRa HRb (dk_tame HK Hs _ _ _ _ _) HM HC H1) as E1.
  pose proof (tm_reduction zero add st _ _ _ a b fm r2 o2 HRa HRb (keeps_h _) HM HC H2) as E2.
  pose proof (mt_reduction zero add st _ _ _ a b mf r3 o3 HRa HRb (keeps_h _) HM HC H3) as E3.
  assert (HBk : b_keeps (mcall (MGeneric (fun x : (K * V) * (K * V) => KDropped (S := K) (X := V) (p (fst x) (snd x))))) (map_visit a) (map_visit b))
    by (intros e e' k v x _ _ _ Hx; discriminate Hx).
  pose proof (mm_reduction zero add _ _ _ a b mm r4 HRa HRb HBk (keeps_h _) (keeps_h _) HM HC H4) as E4.
  cbn [tcall mcall jcall t_red b_red m_red] in E1, E2, E3, E4.
  rewrite (reds_ext _ p _ w _ w) in E1 by (intros; rewrite ?Hr; reflexivity).
  rewrite (reds_ext _ p _ w _ w) in E2 by (intros; rewrite ?Hr; reflexivity).
  rewrite (reds_ext _ p _ w _ w) in E3 by (intros; rewrite ?Hr; reflexivity).
  rewrite (reds_ext _ p _ w _ w) in E4 by (intros; rewrite ?Hr; reflexivity).
  rewrite <- E1 in E2, E3, E4. subst r2 r3 r4. exists ff, fm, mf, mm, r, o, o2, o3.
  split; [exact H1|]. split; [exact H2|]. split; [exact H3|]. split; [exact H4|].
  split; [|split; [|split]]; (split; [assumption|]).
  - rewrite <- (merged_ext fB (fun e => t_to (tcall (TGeneric (fun e => VUnchanged (w e))) e) e) (fun e => t_to (tcall (TGeneric (fun e => VUnchanged (w e))) e) e)) by
      (try reflexivity; exact HB). exact (im_visit _ _ _ _ _ _ HM1).
  - rewrite (im_visit _ _ _ _ _ _ HM2). erewrite merged_ext; [reflexivity|reflexivity|reflexivity|exact Ht].
  - rewrite (im_visit _ _ _ _ _ _ HM3). erewrite merged_ext; [reflexivity|reflexivity|exact Ht|reflexivity].
  - rewrite (im_visit _ _ _ _ _ _ HM4). erewrite merged_ext; [reflexivity|reflexivity|exact Ht|exact Ht].
Qed.
Lemma sum_ok st (m : trie K V) : reachable m -> exists m' o, map_transform zero add st (TGeneric (fun e => VDropped (w e))) m = Ret (m', msum zero add (map w (map_visit m)), o).
Proof using HM.
  intros HR. destruct (transform_exact zero add st (TGeneric (fun e => VDropped (w e))) m HR) as (m' & r & o & H & _).
  pose proof (transform_reduction zero add st _ m m' r o HR HM H) as Hx. exists m', o. rewrite H, Hx. reflexivity.
Qed.
Lemma meets_sum a b m m' : meets a b m -> meets a b m' -> msum zero add (map w (map_visit m)) = msum zero add (map w (map_visit m')).
Proof using HM HC. intros [_ H] [_ H']. apply msum_perm; [exact HM|exact HC|]. apply Permutation_map. rewrite H, H'. reflexivity. Qed.
End Joint.

Section Tests.
Context {E : Env} {size : nat} (HK : default_keys size) (Hs : (size <= 4)%nat) {K : Type} {KK : Key K}.
Context (keqb : K -> K -> bool) (Hkeqb : forall k, keqb k k = true) (zero : K) (add mul : K -> K -> K).

Section Sums.
Context (HM : monoid zero add) (HC : forall a b, add a b = add b a).
Theorem test_map_joint_passes st (a b : list K) : test_map_joint keqb zero add mul st a b = Ret tt.
Proof using HK Hs Hkeqb HM HC.
  unfold test_map_joint.
  destruct (fill_replace_ok HK Hs (with_self a) map_new (reach_new K K KK)) as (ma & -> & HRa & _).
  destruct (fill_replace_ok HK Hs (with_self b) map_new (reach_new K K KK)) as (mb & -> & HRb & _). cbn [bind].
  destruct (joint_agree HK Hs zero add HM HC snd (fun e e' => mul (snd e) (snd e')) (fun e => KTransmuted (fst e) (snd e) (snd e))
    ltac:(intros [x y]; reflexivity) ltac:(reflexivity) st ma mb HRa HRb) as (ff & fm & mf & mm & r & o & o' & o'' & -> & H2 & H3 & H4 & M1 & M2 & M3 & M4).
  cbn [bind]. rewrite H2. cbn [bind]. rewrite H3. cbn [bind]. rewrite H4. cbn [bind]. rewrite !Hkeqb. cbn [ensure bind].
  unfold sum_map.
  destruct (sum_ok zero add HM snd st ff (proj1 M1)) as (? & ? & ->). destruct (sum_ok zero add HM snd st fm (proj1 M2)) as (? & ? & ->).
  destruct (sum_ok zero add HM snd st mf (proj1 M3)) as (? & ? & ->). destruct (sum_ok zero add HM snd st mm (proj1 M4)) as (? & ? & ->). cbn [bind].
  rewrite (meets_sum zero add HM HC snd ma mb ff mm M1 M4), (meets_sum zero add HM HC snd ma mb fm mm M2 M4), (meets_sum zero add HM HC snd ma mb mf mm M3 M4).
  rewrite !Hkeqb. reflexivity.
Qed.
Theorem test_set_joint_passes st (a b : list K) : test_set_joint keqb zero add mul st a b = Ret tt.
Proof using HK Hs Hkeqb HM HC.
  unfold test_set_joint. rewrite !sfill_unwrap_map. unfold set_new.
  destruct (fill_replace_ok HK Hs (units a) map_new (reach_new K unit KK)) as (ma & -> & HRa & _).
  destruct (fill_replace_ok HK Hs (units b) map_new (reach_new K unit KK)) as (mb & -> & HRb & _). cbn [bind].
  destruct (joint_agree HK Hs zero add HM HC fst (fun e e' => mul (fst e) (fst e')) (fun e => KTransmuted (fst e) tt (fst e))
    ltac:(intros [x []]; reflexivity) ltac:(reflexivity) st ma mb HRa HRb) as (ff & fm & mf & mm & r & o & o' & o'' & H1 & H2 & H3 & H4 & M1 & M2 & M3 & M4).
  unfold set_tt, set_tm, set_mt, set_mm. cbn [joint_of transform_of transmute_of both_transform_of both_transmute_of bres_of vres_of kres_of stcall smcall fst snd].
  unfold both_transform_of, both_transmute_of. cbn [bres_of vres_of kres_of stcall smcall fst snd].
  rewrite H1. cbn [bind]. rewrite H2. cbn [bind]. rewrite H3. cbn [bind]. rewrite H4. cbn [bind]. rewrite !Hkeqb. cbn [ensure bind].
  unfold sum_set, set_transform. cbn [transform_of vres_of].
  destruct (sum_ok zero add HM fst st ff (proj1 M1)) as (? & ? & ->). destruct (sum_ok zero add HM fst st fm (proj1 M2)) as (? & ? & ->).
  destruct (sum_ok zero add HM fst st mf (proj1 M3)) as (? & ? & ->). destruct (sum_ok zero add HM fst st mm (proj1 M4)) as (? & ? & ->). cbn [bind].
  rewrite (meets_sum zero add HM HC fst ma mb ff mm M1 M4), (meets_sum zero add HM HC fst ma mb fm mm M2 M4), (meets_sum zero add HM HC fst ma mb mf mm M3 M4).
  rewrite !Hkeqb. reflexivity.
Qed.
End Sums.

(** set_transform and set_transmute: they panic when a number is given twice; otherwise the total is compared with a sum in some order. *)
Section Totals.
Context {R : Type} (reqb : R -> R -> bool) (rzero : R) (radd : R -> R -> R) (of_key : K -> R).

Lemma uniq_units (l : list K) : uniq (units l ++ map_visit (map_new (K := K) (V := unit))) <-> NoDup (map cls l).
Proof. change (map_visit map_new) with (@nil (K * unit)). rewrite app_nil_r. unfold uniq. rewrite units_classes. reflexivity. Qed.
Lemma fill_set (l : list K) :
  (NoDup (map cls l) /\ exists s, sfill_unwrap false set_new l = Ret s /\ reachable s /\ Permutation (set_visit s) l) \/
  (~ NoDup (map cls l) /\ sfill_unwrap false set_new l = Panic).
Proof using HK Hs.
  rewrite sfill_unwrap_map. unfold set_new.
  destruct (fill_once_ok HK Hs (units l) map_new (reach_new K unit KK)) as [[HU (s & H1 & H2 & H3)]|[HU H1]]; rewrite uniq_units in HU.
  - left. split; [exact HU|]. exists s. split; [exact H1|]. split; [exact H2|]. rewrite app_nil_r in H3.
    apply (Permutation_map fst) in H3. unfold units in H3. rewrite map_map, map_id in H3. exact H3.
  - right. auto.
Qed.
Lemma none_left {A B} (l : list A) : flat_map (fun _ => @nil B) l = [].
Proof. induction l; auto. Qed.

Theorem test_set_transform_result st (l : list K) :
  (NoDup (map cls l) -> exists t, Permutation (bleaves t) l /\
     forall total, test_set_transform reqb rzero radd of_key st l total = ensure (reqb (beval rzero radd of_key t) total)) /\
  (~ NoDup (map cls l) -> forall total, test_set_transform reqb rzero radd of_key st l total = Panic).
Proof using HK Hs.
  unfold test_set_transform. destruct (fill_set l) as [[HU (s & -> & HR & HP)]|[HU ->]]; [|split; [contradiction|reflexivity]].
  split; [intros _|contradiction]. cbn [bind].
  destruct (set_transform_exact tt (fun _ _ => tt) st (STRemoved tt) s HR) as (s1 & r1 & o1 & -> & _ & Hv1 & Hz1 & _).
  destruct (set_transform_brackets st (fun k => SDropped (of_key k)) s HR) as (s2 & o2 & t & Ht & H).
  exists t. split; [rewrite Ht; exact HP|]. intros total. rewrite (H rzero radd).
  cbn [bind]. rewrite Hz1, Hv1. cbn [stcall s_to olist]. rewrite none_left. cbn [length N.of_nat N.eqb ensure bind]. reflexivity.
Qed.
Theorem test_set_transmute_result (l : list K) :
  (NoDup (map cls l) -> exists t, Permutation (bleaves t) l /\
     forall total, test_set_transmute reqb rzero radd of_key l total = ensure (reqb (beval rzero radd of_key t) total)) /\
  (~ NoDup (map cls l) -> forall total, test_set_transmute reqb rzero radd of_key l total = Panic).
Proof using HK Hs.
  unfold test_set_transmute. destruct (fill_set l) as [[HU (s & -> & HR & HP)]|[HU ->]]; [|split; [contradiction|reflexivity]].
  split; [intros _|contradiction]. cbn [bind].
  destruct (set_transmute_exact (S := K) tt (fun _ _ => tt) (SMRemoved tt) s HR) as (s1 & r1 & -> & _ & Hv1 & Hz1 & _); [intros k k' r _ [=]|].
  destruct (set_transmute_brackets (S := K) (fun k => SKDropped (of_key k)) s HR) as (s2 & t & Ht & H); [intros k k' r _ [=]|].
  exists t. split; [rewrite Ht; exact HP|]. intros total. rewrite (H rzero radd).
  cbn [bind]. rewrite Hz1, Hv1. cbn [smcall sk_to olist]. rewrite none_left. cbn [length N.of_nat N.eqb ensure bind]. reflexivity.
Qed.
End Totals.

Lemma uniq_with (f : K -> K) (l : list K) : uniq (map (fun k => (k, f k)) l ++ map_visit (map_new (K := K) (V := K))) <-> NoDup (map cls l).
Proof. change (map_visit map_new) with (@nil (K * K)). rewrite app_nil_r. unfold uniq. rewrite map_map. reflexivity. Qed.
Lemma fill_with (f : K -> K) (l : list K) :
  (NoDup (map cls l) /\ exists m, fill_unwrap false map_new (map (fun k => (k, f k)) l) = Ret m /\ reachable m /\ Permutation (map_visit m) (map (fun k => (k, f k)) l)) \/
  (~ NoDup (map cls l) /\ fill_unwrap false map_new (map (fun k => (k, f k)) l) = Panic).
Proof using HK Hs.
  destruct (fill_once_ok HK Hs (map (fun k => (k, f k)) l) map_new (reach_new K K KK)) as [[HU (m & H1 & H2 & H3)]|[HU H1]]; rewrite uniq_with in HU.
  - left. split; [exact HU|]. exists m. split; [exact H1|]. split; [exact H2|]. rewrite app_nil_r in H3. exact H3.
  - right. auto.
Qed.
Lemma find_with (f : K -> K) (l : list K) (m : trie K K) i : reachable m -> NoDup (map cls l) -> Permutation (map_visit m) (map (fun k => (k, f k)) l) ->
  In i l -> map_find m i = Ret (Ok (i, f i)).
Proof.
  intros HR HN HP Hi. rewrite (map_find_ok m i (reachable_mwf _ HR)).
  rewrite (lookup_perm _ _ (cls i) (mwf_uniq _ (reachable_mwf _ HR)) HP).
  assert (HU : uniq (map (fun k => (k, f k)) l)) by (unfold uniq; rewrite map_map; exact HN).
  change (cls i) with (ecls (i, f i)). rewrite (in_lookup _ (i, f i) HU); [reflexivity|]. apply in_map_iff. exists i. auto.
Qed.
Lemma check_squares_ok (m squared tsquared : trie K K) l : (forall i, In i l -> exists e, map_find m i = Ret (Ok e)) ->
  (forall i, In i l -> map_find squared i = Ret (Ok (i, mul i i))) -> (forall i, In i l -> map_find tsquared i = Ret (Ok (i, mul i i))) ->
  check_squares keqb mul m squared tsquared l = Ret tt.
Proof using Hkeqb.
  induction l as [|i l IH]; intros H1 H2 H3; [reflexivity|]. cbn [check_squares].
  destruct (H1 i (or_introl eq_refl)) as [e ->]. cbn [bind unwrap_ok]. rewrite (H2 i (or_introl eq_refl)). cbn [bind unwrap_ok snd]. rewrite Hkeqb. cbn [ensure bind].
  rewrite (H3 i (or_introl eq_refl)). cbn [bind unwrap_ok snd]. rewrite Hkeqb. cbn [ensure bind].
  apply IH; intros; [apply H1|apply H2|apply H3]; right; assumption.
Qed.

Section Squares.
Context (sq : K -> outcome K) (Hsq : forall k, sq k = Ret (mul k k) \/ sq k = Panic).
Lemma with_square_result (l : list K) :
  ((forall k, In k l -> sq k <> Panic) -> with_square sq l = Ret (map (fun k => (k, mul k k)) l)) /\
  ((exists k, In k l /\ sq k = Panic) -> with_square sq l = Panic).
Proof using Hsq.
  induction l as [|i l [IH1 IH2]]; cbn [with_square map]; split; [reflexivity|intros (k & [] & _)| |].
  - intros H. destruct (Hsq i) as [Hi|Hi]; [|exfalso; exact (H i (or_introl eq_refl) Hi)]. rewrite Hi. cbn [bind].
    rewrite IH1 by (intros k Hk; apply H; right; exact Hk). reflexivity.
  - intros (k & [<-|Hk] & Hp); [rewrite Hp; reflexivity|]. destruct (Hsq i) as [Hi|Hi]; rewrite Hi; [|reflexivity]. cbn [bind]. rewrite IH2 by eauto. reflexivity.
Qed.
Definition good (l : list K) : Prop := NoDup (map cls l) /\ forall k, In k l -> sq k <> Panic.
Definition bad (l : list K) : Prop := ~ NoDup (map cls l) \/ exists k, In k l /\ sq k = Panic.

Theorem test_map_transform_result st (l : list K) :
  (good l -> test_map_transform keqb mul sq st l = Ret tt) /\ (bad l -> test_map_transform keqb mul sq st l = Panic).
Proof using HK Hs Hkeqb Hsq.
  unfold test_map_transform, with_self. destruct (fill_with (fun k => k) l) as [[HN (m & -> & HR & HP)]|[HN ->]]; [|split; [intros [H _]; contradiction|reflexivity]].
  cbn [bind]. destruct (with_square_result l) as [HS HS']. split; [intros [_ H]|intros [H|H]; [contradiction|]; rewrite (HS' H); reflexivity].
  rewrite (HS H). cbn [bind].
  destruct (fill_with (fun k => mul k k) l) as [[_ (q & -> & HRq & HPq)]|[HN' _]]; [|contradiction]. cbn [bind].
  destruct (transform_exact tt (fun _ _ => tt) st (TRemoved tt) m HR) as (m1 & r1 & o1 & -> & _ & Hv1 & Hz1 & _).
  destruct (transform_exact tt (fun _ _ => tt) st (TGeneric (fun e => VTransformed (mul (snd e) (snd e)) tt)) m HR) as (m2 & r2 & o2 & -> & HR2 & _ & _ & Hf).
  cbn [bind]. rewrite Hz1, Hv1. cbn [tcall t_entry]. rewrite none_left. cbn [length N.of_nat N.eqb ensure bind].
  apply check_squares_ok; intros i Hi.
  - exists (i, i). exact (find_with (fun k => k) l m i HR HN HP Hi).
  - exact (find_with (fun k => mul k k) l q i HRq HN HPq Hi).
  - rewrite Hf, (find_with (fun k => k) l m i HR HN HP Hi). reflexivity.
Qed.
Theorem test_map_transmute_result (l : list K) :
  (good l -> test_map_transmute keqb mul sq l = Ret tt) /\ (bad l -> test_map_transmute keqb mul sq l = Panic).
Proof using HK Hs Hkeqb Hsq.
  unfold test_map_transmute, with_self. destruct (fill_with (fun k => k) l) as [[HN (m & -> & HR & HP)]|[HN ->]]; [|split; [intros [H _]; contradiction|reflexivity]].
  cbn [bind]. destruct (with_square_result l) as [HS HS']. split; [intros [_ H]|intros [H|H]; [contradiction|]; rewrite (HS' H); reflexivity].
  rewrite (HS H). cbn [bind].
  destruct (fill_with (fun k => mul k k) l) as [[_ (q & -> & HRq & HPq)]|[HN' _]]; [|contradiction]. cbn [bind].
  destruct (transmute_exact (S := K) (X := K) tt (fun _ _ => tt) (MRemoved tt) m HR) as (m1 & r1 & -> & _ & Hv1 & Hz1 & _); [intros e k v r _ [=]|].
  destruct (transmute_exact (S := K) (X := K) tt (fun _ _ => tt) (MGeneric (fun e => KTransmuted (fst e) (mul (snd e) (snd e)) tt)) m HR) as (m2 & r2 & -> & HR2 & _ & _ & Hf & _);
    [intros e k v r _ [= <- _ _]; reflexivity|].
  cbn [bind]. rewrite Hz1, Hv1. cbn [mcall m_entry]. rewrite none_left. cbn [length N.of_nat N.eqb ensure bind].
  apply check_squares_ok; intros i Hi.
  - exists (i, i). exact (find_with (fun k => k) l m i HR HN HP Hi).
  - exact (find_with (fun k => mul k k) l q i HRq HN HPq Hi).
  - rewrite Hf, (find_with (fun k => k) l m i HR HN HP Hi). reflexivity.
Qed.
End Squares.
End Tests.

(** * With [i32] *)
Section I32.
Context (debug : bool) (n : nat) (Hn : (3 <= n)%nat).
Notation EI := (i32_env debug n Hn).
Notation KI := (i32_key debug n Hn).

Lemma cls_i32 (l : list i32) : map (@cls EI i32 KI) l = l.
Proof. exact (map_id l). Qed.
Lemma word_refl (k : i32) : word_eqb k k = true.
Proof. apply word_eqb_eq. reflexivity. Qed.
Definition squares_fit (l : list i32) : Prop := debug = true -> forall k, In k l -> (sval k * sval k < 2 ^ 31)%Z.
Lemma isquare_panics k : isquare debug k = Panic <-> debug = true /\ (2 ^ 31 <= sval k * sval k)%Z.
Proof.
  unfold isquare, fits. destruct debug; cbn [andb]; [|split; [discriminate|intros [[=] _]]].
  pose proof (Z.square_nonneg (sval k)). destruct (Z.leb_spec (- 2 ^ 31) (sval k * sval k)), (Z.ltb_spec (sval k * sval k) (2 ^ 31));
    cbn [negb andb]; split; try discriminate; try reflexivity; intros Hx; try lia; split; auto; lia.
Qed.
Lemma isquare_or k : isquare debug k = Ret (wmul k k) \/ isquare debug k = Panic.
Proof. unfold isquare. destruct (_ && _); auto. Qed.
Lemma i32_good l : NoDup l /\ squares_fit l -> good (E := EI) (KK := KI) (isquare debug) l.
Proof.
  intros [H1 H2]. split; [rewrite cls_i32; exact H1|]. intros k Hk Hp. apply isquare_panics in Hp. destruct Hp as [Hd Hp]. specialize (H2 Hd k Hk). lia.
Qed.
Lemma i32_bad l : ~ (NoDup l /\ squares_fit l) -> bad (E := EI) (KK := KI) (isquare debug) l.
Proof.
  intros H. unfold bad. rewrite cls_i32. destruct (i32_nodup_dec l) as [HN|HN]; [|left; exact HN]. right.
  destruct (Exists_dec (fun k => isquare debug k = Panic) l) as [He|He].
  - intros k. unfold isquare. destruct (_ && _); [left; reflexivity|right; discriminate].
  - apply Exists_exists in He. exact He.
  - exfalso. apply H. split; [exact HN|]. intros Hd k Hk. destruct (Z.lt_ge_cases (sval k * sval k) (2 ^ 31)) as [|Hg]; [assumption|].
    exfalso. apply He. apply Exists_exists. exists k. split; [exact Hk|]. apply isquare_panics. auto.
Qed.
Theorem i32_map_transform st (l : list i32) :
  (NoDup l /\ squares_fit l -> test_map_transform (E := EI) (KK := KI) word_eqb wmul (isquare debug) st l = Ret tt) /\
  (~ (NoDup l /\ squares_fit l) -> test_map_transform (E := EI) (KK := KI) word_eqb wmul (isquare debug) st l = Panic).
Proof.
  destruct (test_map_transform_result (E := EI) (KK := KI) (i32_default debug n Hn) (le_n 4) word_eqb word_refl wmul (isquare debug) isquare_or st l) as [H1 H2].
  split; intros H; [apply H1, i32_good, H|apply H2, i32_bad, H].
Qed.
Theorem i32_map_transmute (l : list i32) :
  (NoDup l /\ squares_fit l -> test_map_transmute (E := EI) (KK := KI) word_eqb wmul (isquare debug) l = Ret tt) /\
  (~ (NoDup l /\ squares_fit l) -> test_map_transmute (E := EI) (KK := KI) word_eqb wmul (isquare debug) l = Panic).
Proof.
  destruct (test_map_transmute_result (E := EI) (KK := KI) (i32_default debug n Hn) (le_n 4) word_eqb word_refl wmul (isquare debug) isquare_or l) as [H1 H2].
  split; intros H; [apply H1, i32_good, H|apply H2, i32_bad, H].
Qed.
(** What [t] does for the numbers [l] and the expected [total]. *)
Definition sums_right (t : outcome unit) (l : list i32) (total : i32) : Prop :=
  (~ NoDup l -> t = Panic) /\
  (debug = false -> NoDup l -> wrap (nsum l) = total -> t = Ret tt) /\
  (debug = false -> wrap (nsum l) <> total -> t = Panic) /\
  (debug = true -> NoDup l -> zsum l = sval total -> (zsize l < 2 ^ 31)%Z -> t = Ret tt) /\
  (debug = true -> zsum l <> sval total -> t = Panic).
Lemma sums_decided (run : option i32 -> outcome unit) (l : list i32) :
  (NoDup (map (@cls EI i32 KI) l) -> exists t, Permutation (bleaves t) l /\
     forall total, run total = ensure (oeqb (beval (Some (wrap 0)) (iadd debug) Some t) total)) /\
  (~ NoDup (map (@cls EI i32 KI) l) -> forall total, run total = Panic) ->
  forall total, sums_right (run (Some total)) l total.
Proof.
  rewrite cls_i32. intros [H1 H2] total. unfold sums_right. split; [intros HN; exact (H2 HN _)|].
  destruct (i32_nodup_dec l) as [HN|HN].
  2:{ rewrite (H2 HN). repeat split; try reflexivity; intros; contradiction. }
  destruct (H1 HN) as (t & HP & Ht). rewrite (Ht (Some total)). clear H1 H2 Ht. destruct debug.
  - split; [intros [=]|]. split; [intros [=]|]. split; intros _.
    + intros _ He Hf. rewrite <- (zsize_perm _ _ HP) in Hf. destruct (iadd_fits t Hf) as [x Hx]. rewrite Hx. apply iadd_exact in Hx.
      rewrite (zsum_perm _ _ HP), He in Hx. apply sval_inj in Hx. subst x. cbn [oeqb]. rewrite (proj2 (word_eqb_eq total total) eq_refl). reflexivity.
    + intros He. destruct (beval _ _ _ t) as [x|] eqn:Hx; [|reflexivity]. apply iadd_exact in Hx. rewrite (zsum_perm _ _ HP) in Hx.
      cbn [oeqb]. destruct (word_eqb x total) eqn:Hw; [|reflexivity]. apply word_eqb_eq in Hw. subst x. congruence.
  - rewrite iadd_wraps, (nsum_perm _ _ HP). cbn [oeqb]. split; [intros _ _ ->; rewrite (proj2 (word_eqb_eq total total) eq_refl); reflexivity|].
    split; [|split; intros [=]]. intros _ He. destruct (word_eqb _ total) eqn:Hw; [|reflexivity]. apply word_eqb_eq in Hw. contradiction.
Qed.
Theorem i32_set_transform st (l : list i32) (total : i32) :
  sums_right (test_set_transform (E := EI) (KK := KI) oeqb (Some (wrap 0)) (iadd debug) Some st l (Some total)) l total.
Proof. exact (sums_decided _ l (test_set_transform_result (E := EI) (KK := KI) (i32_default debug n Hn) (le_n 4) oeqb _ (iadd debug) Some st l) total). Qed.
Theorem i32_set_transmute (l : list i32) (total : i32) :
  sums_right (test_set_transmute (E := EI) (KK := KI) oeqb (Some (wrap 0)) (iadd debug) Some l (Some total)) l total.
Proof. exact (sums_decided _ l (test_set_transmute_result (E := EI) (KK := KI) (i32_default debug n Hn) (le_n 4) oeqb _ (iadd debug) Some l) total). Qed.
End I32.
