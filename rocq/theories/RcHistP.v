(** Reference counts over whole histories. *)
From Coq Require Import NArith Arith List Bool Lia.
From Verif Require Import Base Bia Node Api Versions Heap SpecH HeapP HeapHist HeapHistP HeapBulk HeapRun HeapOpP HeapPropP HeapRunP HeapPlaceP Rc RcP.
Import ListNotations.
Open Scope nat_scope.

Section RcHistP.
Context {E : Env} {K V R : Type} {KK : Key K}.
Context (rdef : R) (rd : R -> R -> R).
Notation heap := (heap K V).
Implicit Types (h : heap) (cnt : counts).

Definition sound h cnt (vs : list hnode) (ts : list (trie K V)) : Prop :=
  Forall2 (rep h) vs ts /\ balanced h cnt vs /\ forall a, cnt a <> 0 -> reaches h vs a.

Lemma f2_rep h vs ts n : Forall2 (rep h) vs ts -> In n vs -> exists t, rep h n t.
Proof. intros HF Hn. destruct (in_forall2 _ _ _ _ HF Hn) as (t & _ & Ht). exists t. exact Ht. Qed.

Lemma sound_junk h cnt vs ts h' : sound h cnt vs ts -> junk cnt h h' -> sound h' cnt vs ts.
Proof.
  intros (HF & HB & HR) (Hl & Hj).
  assert (Hag : forall n, In n vs -> forall b, inside h n b -> nth_error h' b = nth_error h b).
  { intros n Hn b Hb. apply Hj. eapply held_alive; eassumption. }
  split; [|split].
  - clear HB HR. induction HF as [|n t vs ts Hn HF IH]; constructor.
    + eapply rep_agree; [exact Hn|]. apply Hag. left. reflexivity.
    + apply IH. intros m Hm. apply Hag. right. exact Hm.
  - destruct HB as [HB1 HB2]. split.
    + intros a. rewrite (owed_agree h h' cnt a Hl Hj). apply HB1.
    + intros a Ha. rewrite Hl. apply HB2, Ha.
  - intros a Ha. destruct (HR a Ha) as (n & Hn & Hi). exists n. split; [exact Hn|].
    destruct (f2_rep _ _ _ _ HF Hn) as (t & Ht). eapply inside_agree; [exact Ht| |exact Hi]. apply Hag, Hn.
Qed.

Lemma sound_gain h cnt vs ts h1 n t : sound h cnt vs ts -> ext h h1 -> rep h1 n t ->
  exists cnt', acquire (rc_fuel h1) h1 [addr_of n] cnt = Ret cnt' /\ sound h1 cnt' (vs ++ [n]) (ts ++ [t]).
Proof.
  intros (HF & (HB1 & HB2) & HR) He Hr.
  destruct (acquire_ok h1 (inside h1 n) (map addr_of (vs ++ [n]))) with (fuel := rc_fuel h1) (todo := [addr_of n]) (cnt := cnt)
    as (cnt' & H1 & (H2 & H2') & H3 & H4).
  - intros b Hb. destruct (inside_child h1 n t Hr b Hb) as (c & Hc & HFc). exists c. split; [exact Hc|].
    eapply Forall_impl; [|exact HFc]. intros r Hx. exact (proj2 Hx).
  - cbn [length]. apply asleep_fuel.
  - split.
    + intros a. rewrite map_app. cbn [map]. rewrite occ_app, (owed_ext h h1 cnt a He HB2), (HB1 a) at 1. lia.
    + intros a Ha. specialize (HB2 a Ha). pose proof (ext_len _ _ He). lia.
  - constructor; [constructor|constructor].
  - exists cnt'. split; [exact H1|]. split; [|split].
    + apply Forall2_app; [|constructor; [exact Hr|constructor]]. eapply forall2_impl; [|exact HF]. intros. eapply rep_ext; eassumption.
    + split; [|exact H2']. intros a. specialize (H2 a). cbn [count_occ] in H2. lia.
    + intros a Ha. destruct (H4 a Ha) as [H|H].
      * destruct (HR a H) as (m & Hm & Hi). exists m. split; [apply in_or_app; left; exact Hm|]. eapply inside_ext; eassumption.
      * exists n. split; [apply in_or_app; right; left; reflexivity|exact H].
Qed.

Lemma remove_split {A} i (l : list A) x : nth_error l i = Some x -> exists l1 l2, l = l1 ++ x :: l2 /\ remove_nth i l = l1 ++ l2 /\ length l1 = i.
Proof.
  intros H. destruct (nth_error_split _ _ H) as (l1 & l2 & -> & Hl). exists l1, l2. split; [reflexivity|]. split; [|exact Hl].
  unfold remove_nth. subst i. rewrite firstn_app, firstn_all, Nat.sub_diag, firstn_O, app_nil_r. f_equal.
  rewrite skipn_app, skipn_all2 by lia. replace (S (length l1) - length l1) with 1 by lia. reflexivity.
Qed.

Lemma remove_in {A} i (l : list A) x y : nth_error l i = Some x -> (In y l <-> y = x \/ In y (remove_nth i l)).
Proof.
  intros H. destruct (remove_split _ _ _ H) as (l1 & l2 & -> & -> & _). rewrite !in_app_iff. cbn [In]. intuition congruence.
Qed.

Lemma sound_acyclic h cnt vs ts : sound h cnt vs ts -> forall b c r, cnt b <> 0 -> nth_error h b = Some c -> In r (refs c) -> r < b.
Proof.
  intros (HF & _ & HR) b c r Hb Hc Hr. destruct (HR b Hb) as (n & Hn & Hi). destruct (f2_rep _ _ _ _ HF Hn) as (t & Ht).
  destruct (inside_child h n t Ht b Hi) as (c' & Hc' & HFc). rewrite Hc in Hc'. injection Hc' as <-.
  exact (proj1 (proj1 (Forall_forall _ _) HFc r Hr)).
Qed.

Lemma sound_lose h cnt vs ts i n : sound h cnt vs ts -> nth_error vs i = Some n ->
  exists cnt', release (rc_fuel h) h [addr_of n] cnt = Ret cnt' /\ sound h cnt' (remove_nth i vs) (remove_nth i ts) /\ forall a, cnt' a <= cnt a.
Proof.
  intros HS Hi. pose proof (sound_acyclic _ _ _ _ HS) as Hac. destruct HS as (HF & (HB1 & HB2) & HR).
  destruct (remove_split _ _ _ Hi) as (l1 & l2 & Hv & Hv' & Hl).
  destruct (release_ok h (map addr_of (remove_nth i vs)) (rc_fuel h) [addr_of n] cnt) as (cnt' & H1 & (H2 & H2') & H3).
  - intros b c Hb Hc. apply Forall_forall. intros r Hr. specialize (Hac b c r Hb Hc Hr). specialize (HB2 b Hb). lia.
  - cbn [length]. apply awake_fuel.
  - split; [|exact HB2]. intros a. rewrite Hv'. specialize (HB1 a). rewrite Hv, map_app in HB1. cbn [map] in HB1.
    rewrite map_app, occ_app. rewrite occ_app, occ_cons in HB1. rewrite occ_cons. cbn [count_occ]. lia.
  - exists cnt'. split; [exact H1|]. split; [|exact H3]. assert (HF' : Forall2 (rep h) (remove_nth i vs) (remove_nth i ts)).
    { unfold remove_nth. apply Forall2_app; [apply firstn_rel, HF|apply skipn_rel, HF]. }
    assert (HB' : balanced h cnt' (remove_nth i vs)).
    { split; [|exact H2']. intros a. specialize (H2 a). cbn [count_occ] in H2. lia. }
    split; [exact HF'|]. split; [exact HB'|]. apply alive_held.
    + intros m Hm. eapply f2_rep; eassumption.
    + exact HB'.
    + intros b c r Hb Hc Hr. apply (Hac b c r); [|exact Hc|exact Hr]. specialize (H3 b). lia.
Qed.

Lemma f2_length {A B} (P : A -> B -> Prop) l l' : Forall2 P l l' -> length l = length l'.
Proof. induction 1; cbn [length]; congruence. Qed.

Lemma rstep_sound h cnt vs ts c h' cnt' vs' : sound h cnt vs ts -> rstep rdef rd h cnt vs c h' cnt' vs' ->
  exists ts', tree_step rdef rd ts c ts' /\ sound h' cnt' vs' ts'.
Proof.
  intros HS Hst. destruct Hst as [h cnt vs n h1 cnt' h' Hn Ha Hj|h cnt vs i n cnt' h' Hn Ha Hj|h cnt vs c n x h1 cnt' h' HU Hr Ha Hj|h cnt vs c h' HU Hr Hj|h cnt vs i n cnt' h' Hn Ha Hj].
  - destruct (hm_new_ok _ _ _ Hn) as (He & Hr & _). destruct (sound_gain _ _ _ _ _ _ _ HS He Hr) as (cnt2 & Ha2 & HS').
    rewrite Ha2 in Ha. injection Ha as ->. eexists. split; [constructor|]. eapply sound_junk; eassumption.
  - pose proof (nth_rel _ _ _ (proj1 HS) i) as Ho. rewrite Hn in Ho. inversion Ho as [x t Ht E1 E2|]; subst.
    destruct (sound_gain _ _ _ _ _ _ _ HS (ext_refl h) Ht) as (cnt2 & Ha2 & HS').
    rewrite Ha2 in Ha. injection Ha as ->. exists (ts ++ [t]). split; [econstructor; symmetry; exact E2|]. eapply sound_junk; [exact HS'|exact Hj].
  - pose proof (hrun_ok rdef rd h vs ts c (proj1 HS) HU) as Ho. rewrite Hr in Ho. inversion Ho as [p [t y] (He & Hp & Hg & _ & Hs) E1 E2| |]; subst.
    cbn [fst snd] in *. destruct (sound_gain _ _ _ _ _ _ _ HS He Hp) as (cnt2 & Ha2 & HS'). rewrite Ha2 in Ha. injection Ha as ->.
    exists (ts ++ [t]). split; [|eapply sound_junk; eassumption]. econstructor; [|symmetry; exact E2].
    eapply Forall_impl; [|exact HU]. intros j Hlt. cbv beta in *. rewrite (f2_length _ _ _ (proj1 HS)) in Hlt. exact Hlt.
  - pose proof (hrun_ok rdef rd h vs ts c (proj1 HS) HU) as Ho. rewrite Hr in Ho. inversion Ho as [|E1 E2|]; subst.
    exists ts. split; [|eapply sound_junk; eassumption]. constructor; [|symmetry; assumption].
    eapply Forall_impl; [|exact HU]. intros j Hlt. cbv beta in *. rewrite (f2_length _ _ _ (proj1 HS)) in Hlt. exact Hlt.
  - destruct (sound_lose _ _ _ _ _ _ HS Hn) as (cnt2 & Ha2 & HS' & _). rewrite Ha2 in Ha. injection Ha as ->.
    eexists. split; [|eapply sound_junk; eassumption]. constructor.
    assert (Hlt : i < length vs) by (apply nth_error_Some; congruence). rewrite (f2_length _ _ _ (proj1 HS)) in Hlt. exact Hlt.
Qed.

Theorem rsteps_sound cs h cnt vs : rsteps rdef rd cs h cnt vs -> exists ts, tree_steps rdef rd cs ts /\ sound h cnt vs ts.
Proof.
  induction 1 as [|cs h cnt vs c h' cnt' vs' _ (ts & Ht & HS) Hst].
  - exists []. split; [constructor|]. split; [constructor|]. split; [split; [reflexivity|congruence]|congruence].
  - destruct (rstep_sound _ _ _ _ _ _ _ _ HS Hst) as (ts' & Hts & HS'). exists ts'. split; [econstructor; eassumption|exact HS'].
Qed.

(** * The theorems *)

Theorem rc_alive cs h cnt vs a : rsteps rdef rd cs h cnt vs ->
  cnt a <> 0 <-> exists n, In n vs /\ inside h n a.
Proof.
  intros H. destruct (rsteps_sound _ _ _ _ H) as (ts & _ & HF & HB & HR). split; [apply HR|].
  intros (n & Hn & Hi). eapply held_alive; eassumption.
Qed.

Theorem rc_counts cs h cnt vs a : rsteps rdef rd cs h cnt vs -> cnt a = arcs h cnt vs a.
Proof.
  intros H. destruct (rsteps_sound _ _ _ _ H) as (ts & _ & _ & (HB & _) & _). rewrite arcs_owed. apply HB.
Qed.

Theorem rc_drop cs h cnt vs i n : rsteps rdef rd cs h cnt vs -> nth_error vs i = Some n ->
  exists cnt', release (rc_fuel h) h [addr_of n] cnt = Ret cnt' /\
    forall a, cnt a <> 0 -> (cnt' a = 0 <-> inside h n a /\ ~ exists m, In m (remove_nth i vs) /\ inside h m a).
Proof.
  intros H Hi. destruct (rsteps_sound _ _ _ _ H) as (ts & _ & HS). destruct (sound_lose _ _ _ _ _ _ HS Hi) as (cnt' & Hr & HS' & Hle).
  exists cnt'. split; [exact Hr|]. intros a Ha. destruct HS' as (HF' & HB' & HR'). destruct HS as (HF & HB & HR). split.
  - intros H0. destruct (HR a Ha) as (m & Hm & Hin).
    assert (Hno : ~ exists m, In m (remove_nth i vs) /\ inside h m a).
    { intros (m' & Hm' & Hi'). apply (held_alive _ _ _ _ _ HB' Hm' Hi'). exact H0. }
    split; [|exact Hno]. apply (remove_in i vs n) in Hm; [|exact Hi]. destruct Hm as [->|Hm]; [exact Hin|].
    exfalso. apply Hno. exists m. split; assumption.
  - intros (_ & Hno). destruct (Nat.eq_dec (cnt' a) 0) as [H0|H0]; [exact H0|]. exfalso. apply Hno. exact (HR' a H0).
Qed.

Theorem rc_step cs h cnt vs c n x h1 : rsteps rdef rd cs h cnt vs -> Forall (fun i => i < length vs) (uses c) ->
  hrun rdef rd h vs c = Ret (n, x, h1) -> exists cnt', acquire (rc_fuel h1) h1 [addr_of n] cnt = Ret cnt'.
Proof.
  intros H HU Hr. destruct (rsteps_sound _ _ _ _ H) as (ts & _ & HS).
  pose proof (hrun_ok rdef rd h vs ts c (proj1 HS) HU) as Ho. rewrite Hr in Ho. inversion Ho as [p [t y] (He & Hp & Hg & _ & Hs) E1 E2| |]; subst.
  cbn [fst snd] in *. destruct (sound_gain _ _ _ _ _ _ _ HS He Hp) as (cnt2 & Ha2 & HS'). exists cnt2. exact Ha2.
Qed.

Theorem rc_contents cs h cnt vs : rsteps rdef rd cs h cnt vs ->
  exists ts, tree_steps rdef rd cs ts /\ Forall2 (answers h) vs ts /\
    forall c, Forall (fun i => i < length vs) (uses c) ->
      refines (fun p q => answers (snd p) (fst (fst p)) (fst q) /\ same_got (snd p) (snd (fst p)) (snd q))
        (hrun rdef rd h vs c) (derive rdef rd ts c).
Proof.
  intros H. destruct (rsteps_sound _ _ _ _ H) as (ts & Ht & HS). exists ts. split; [exact Ht|]. split.
  - eapply forall2_impl; [|exact (proj1 HS)]. intros. apply rep_answers. assumption.
  - intros c HU. eapply refines_weak; [exact (hrun_ok rdef rd h vs ts c (proj1 HS) HU)|].
    intros p q (_ & Hp & Hg & _). split; [apply rep_answers, Hp|exact Hg].
Qed.

Theorem rc_empty cs h cnt a : rsteps rdef rd cs h cnt [] -> cnt a = 0.
Proof.
  intros H. destruct (Nat.eq_dec (cnt a) 0) as [H0|H0]; [exact H0|]. apply (rc_alive _ _ _ _ _ H) in H0.
  destruct H0 as (n & [] & _).
Qed.

(** * Later states *)

Lemma rstep_keeps h cnt vs ts c h' cnt' vs' : sound h cnt vs ts -> rstep rdef rd h cnt vs c h' cnt' vs' ->
  length h <= length h' /\ (forall a, cnt a <> 0 -> cnt' a <> 0 -> nth_error h' a = nth_error h a) /\
  (forall a, a < length h -> cnt a = 0 -> cnt' a = 0).
Proof.
  intros HS Hst.
  assert (Hgain : forall h1 n t cnt2 h2, ext h h1 -> rep h1 n t -> acquire (rc_fuel h1) h1 [addr_of n] cnt = Ret cnt2 -> junk cnt2 h1 h2 ->
    (forall x, inside h1 n x -> length h <= x \/ exists i m, nth_error vs i = Some m /\ inside h m x) ->
    length h <= length h2 /\ (forall a, cnt a <> 0 -> cnt2 a <> 0 -> nth_error h2 a = nth_error h a) /\ (forall a, a < length h -> cnt a = 0 -> cnt2 a = 0)).
  { intros h1 n t cnt2 h2 He Hr Ha Hj Hin. destruct (sound_gain _ _ _ _ _ _ _ HS He Hr) as (cnt3 & Ha3 & HS3).
    rewrite Ha in Ha3. injection Ha3 as <-. split; [|split].
    - rewrite (proj1 Hj). apply ext_len, He.
    - intros a H1 H2. rewrite (proj2 Hj a H2). destruct He as (new & ->). apply nth_error_app1. apply (proj2 (proj1 (proj2 HS))), H1.
    - intros a Hl H0. destruct (Nat.eq_dec (cnt2 a) 0) as [Hz|Hz]; [exact Hz|]. exfalso.
      destruct (proj2 (proj2 HS3) a Hz) as (m & Hm & Hi). apply in_app_or in Hm. destruct HS as (HF & HB & HR).
      assert (Hheld : forall m, In m vs -> inside h m a -> False) by (intros m' Hm' Hi'; exact (held_alive _ _ _ _ _ HB Hm' Hi' H0)).
      destruct Hm as [Hm|[<-|[]]].
      + apply (Hheld m Hm). destruct (f2_rep _ _ _ _ HF Hm) as (t' & Ht').
        eapply inside_old; eassumption.
      + destruct (Hin a Hi) as [Hx|(i & m' & Hm' & Hi')]; [lia|]. apply (Hheld m'); [eapply nth_error_In, Hm'|exact Hi']. }
  destruct Hst as [h cnt vs n h1 cnt' h' Hn Ha Hj|h cnt vs i n cnt' h' Hn Ha Hj|h cnt vs c n x h1 cnt' h' HU Hr Ha Hj|h cnt vs c h' HU Hr Hj|h cnt vs i n cnt' h' Hn Ha Hj].
  - destruct (hm_new_ok _ _ _ Hn) as (He & Hr & _). eapply Hgain; try eassumption. unfold hm_new, alloc in Hn. injection Hn as <- <-.
    intros x Hx. destruct (inside_new_C _ _ _ Hx) as [->|(c & [] & _)]. left. lia.
  - pose proof (nth_rel _ _ _ (proj1 HS) i) as Ho. rewrite Hn in Ho. inversion Ho as [x t Ht E1 E2|]; subst.
    eapply Hgain; try eassumption; [apply ext_refl|]. intros x Hx. right. exists i, n. auto.
  - pose proof (hrun_ok rdef rd h vs ts c (proj1 HS) HU) as Ho. rewrite Hr in Ho. inversion Ho as [p [t y] (He & Hp & Hg & Hk & Hs) E1 E2| |]; subst.
    cbn [fst snd] in *. eapply Hgain; try eassumption. intros z Hz. destruct (Hk z Hz) as [H|(i & m & _ & Hm & Hi)]; [left; exact H|right; exists i, m; auto].
  - split; [rewrite (proj1 Hj); lia|]. split; [|auto]. intros a H1 _. apply (proj2 Hj), H1.
  - destruct (sound_lose _ _ _ _ _ _ HS Hn) as (cnt2 & Ha2 & HS' & Hle). rewrite Ha2 in Ha. injection Ha as ->.
    split; [rewrite (proj1 Hj); lia|]. split.
    + intros a _ H2. apply (proj2 Hj), H2.
    + intros a _ H0. specialize (Hle a). lia.
Qed.

Lemma rthen_keeps h cnt vs ts cs h' cnt' vs' : sound h cnt vs ts -> rthen rdef rd h cnt vs cs h' cnt' vs' ->
  (exists ts', sound h' cnt' vs' ts') /\ length h <= length h' /\
  (forall a, cnt a <> 0 -> cnt' a <> 0 -> nth_error h' a = nth_error h a) /\ (forall a, a < length h -> cnt a = 0 -> cnt' a = 0).
Proof.
  intros HS. induction 1 as [|cs h1 cnt1 vs1 c h' cnt' vs' _ ((ts1 & HS1) & Hl1 & Hk1 & Hd1) Hst].
  - split; [exists ts; exact HS|]. split; [lia|]. split; auto.
  - destruct (rstep_sound _ _ _ _ _ _ _ _ HS1 Hst) as (ts' & _ & HS'). destruct (rstep_keeps _ _ _ _ _ _ _ _ HS1 Hst) as (Hl2 & Hk2 & Hd2).
    split; [exists ts'; exact HS'|]. split; [lia|]. split.
    + intros a H0 H2. assert (Hlt : a < length h) by (apply (proj2 (proj1 (proj2 HS))), H0).
      destruct (Nat.eq_dec (cnt1 a) 0) as [Hz|Hz].
      * exfalso. apply H2, Hd2; [lia|exact Hz].
      * rewrite (Hk2 a Hz H2). apply Hk1; assumption.
    + intros a Hlt H0. apply Hd2; [lia|]. apply Hd1; assumption.
Qed.

Theorem rc_stays cs h cnt vs ds h' cnt' vs' n m a : rsteps rdef rd cs h cnt vs -> rthen rdef rd h cnt vs ds h' cnt' vs' ->
  In n vs -> inside h n a -> In m vs' -> inside h' m a -> nth_error h' a = nth_error h a.
Proof.
  intros H Ht Hn Hi Hm Hi'. destruct (rsteps_sound _ _ _ _ H) as (ts & _ & HS).
  destruct (rthen_keeps _ _ _ _ _ _ _ _ HS Ht) as ((ts' & HF' & HB' & HR') & _ & Hk & _). apply Hk.
  - eapply held_alive; [exact (proj1 (proj2 HS))|exact Hn|exact Hi].
  - eapply held_alive; eassumption.
Qed.

Lemma inside_both h h' (P P' : addr -> Prop) : (forall a, P a -> P' a -> nth_error h' a = nth_error h a) -> forall n x, inside h n x ->
  (forall b, inside h n b -> P b) -> (forall b, inside h' n b -> P' b) -> inside h' n x.
Proof.
  intros Hk n x. induction 1 as [n|a c child x Ha Hc Hi IH|a k v next z x Ha Hi IH]; intros H1 H2; [constructor| |].
  - assert (Ha' : nth_error h' a = Some (CellC c)) by (rewrite Hk; [exact Ha|apply H1, (in_self h (HC a))|apply H2, (in_self h' (HC a))]).
    eapply in_C; [exact Ha'|exact Hc|]. apply IH; intros b Hb; [apply H1|apply H2]; eapply in_C; eassumption.
  - assert (Ha' : nth_error h' a = Some (CellL k v next z)) by (rewrite Hk; [exact Ha|apply H1, (in_self h (HL a))|apply H2, (in_self h' (HL a))]).
    eapply in_L; [exact Ha'|]. apply IH; intros b Hb; [apply H1|apply H2]; eapply in_L; eassumption.
Qed.

(** A map still held contains the same cells. *)
Theorem rc_holds cs h cnt vs ds h' cnt' vs' n a : rsteps rdef rd cs h cnt vs -> rthen rdef rd h cnt vs ds h' cnt' vs' ->
  In n vs -> In n vs' -> (inside h' n a <-> inside h n a) /\ (inside h n a -> nth_error h' a = nth_error h a).
Proof.
  intros H Ht Hn Hn'. destruct (rsteps_sound _ _ _ _ H) as (ts & _ & HS).
  destruct (rthen_keeps _ _ _ _ _ _ _ _ HS Ht) as ((ts' & HF' & HB' & HR') & _ & Hk & _).
  assert (Ha : forall b, inside h n b -> cnt b <> 0) by (intros b; apply (held_alive _ _ _ _ _ (proj1 (proj2 HS)) Hn)).
  assert (Ha' : forall b, inside h' n b -> cnt' b <> 0) by (intros b; apply (held_alive _ _ _ _ _ HB' Hn')).
  assert (Hto : inside h n a -> inside h' n a).
  { intros Hi. eapply (inside_both h h' (fun b => cnt b <> 0) (fun b => cnt' b <> 0)); eauto. }
  split; [split; [|exact Hto]|].
  - intros Hi. eapply (inside_both h' h (fun b => cnt' b <> 0) (fun b => cnt b <> 0)); eauto. intros b H1 H2. symmetry. auto.
  - intros Hi. apply Hk; auto.
Qed.

(** The addresses calls answer with. *)
Theorem rc_answers cs h cnt vs c n x h1 : rsteps rdef rd cs h cnt vs -> Forall (fun i => i < length vs) (uses c) ->
  hrun rdef rd h vs c = Ret (n, x, h1) ->
  match x with
  | HGInserted a prev => inside h1 n a /\ forall p, prev = Some p -> exists m, In m vs /\ inside h m p
  | HGRefused a | HGRemoved a => exists m, In m vs /\ inside h m a
  | HGNotFound | HGReduced _ => True
  end.
Proof.
  intros H HU Hr. destruct (rsteps_sound _ _ _ _ H) as (ts & _ & HS & _).
  destruct c as [i k v replace|i k|i st op|i op|i j st both lop rop|i j st both lop rop|i j st both lop rop|i j both lop rop];
    cbn [uses] in HU; pose proof (Forall_inv HU) as Hi; destruct (nth_held rdef rd h vs ts i HS Hi) as (m & Hm & Hrm);
    cbn [hrun] in Hr; rewrite Hm in Hr; cbn [unwrap bind] in Hr; pose proof (nth_error_In _ _ Hm) as Hv.
  - pose proof (hm_insert_ok (fun x => x) h m _ k v replace Hrm) as Hins. inversion Hins as [[r h'] r' Hrel E1 E2|E1 E2|E1 E2]; rewrite <- E1 in Hr; cbn [bind] in Hr; try discriminate.
    cbn [mins_rel] in Hrel. destruct r as [[[n' a] prev]|a], r' as [[[t' e] prev']|e]; try contradiction; injection Hr as <- <- <-.
    + destruct Hrel as (_ & _ & _ & _ & (_ & Ha) & Hp & _). split; [exact Ha|]. intros p ->. inversion Hp as [? ? (_ & Hin)|]; subst. exists m. auto.
    + exists m. split; [exact Hv|]. exact (proj2 (proj2 Hrel)).
  - pose proof (hm_remove_ok h m _ k Hrm) as Hins. inversion Hins as [[r h'] r' Hrel E1 E2|E1 E2|E1 E2]; rewrite <- E1 in Hr; cbn [bind] in Hr; try discriminate.
    cbn [mrem_rel] in Hrel. destruct r as [[n' a]|a], r' as [[t' e]|e]; try contradiction; injection Hr as <- <- <-; [|exact I].
    destruct Hrel as (_ & _ & _ & (_ & Ha) & _). exists m. auto.
  - destruct (hm_transform rdef rd st op h m) as [[nr h']| |]; try discriminate. injection Hr as <- <- <-. exact I.
  - destruct (hm_transmute rdef rd op h m h) as [[nr h']| |]; try discriminate. injection Hr as <- <- <-. exact I.
  - destruct (unwrap (nth_error vs j)) as [m'| |]; try discriminate. cbn [bind] in Hr. destruct (hm_tt rdef rd st both lop rop h m m') as [[nr h']| |]; try discriminate. injection Hr as <- <- <-. exact I.
  - destruct (unwrap (nth_error vs j)) as [m'| |]; try discriminate. cbn [bind] in Hr. destruct (hm_tm rdef rd st both lop rop h m h m') as [[nr h']| |]; try discriminate. injection Hr as <- <- <-. exact I.
  - destruct (unwrap (nth_error vs j)) as [m'| |]; try discriminate. cbn [bind] in Hr. destruct (hm_mt rdef rd st both lop rop h m h m') as [[nr h']| |]; try discriminate. injection Hr as <- <- <-. exact I.
  - destruct (unwrap (nth_error vs j)) as [m'| |]; try discriminate. cbn [bind] in Hr. destruct (hm_mm rdef rd both lop rop h m h m' h) as [[nr h']| |]; try discriminate. injection Hr as <- <- <-. exact I.
Qed.

End RcHistP.
