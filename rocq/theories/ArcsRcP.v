(** The steps of Rc.v, one atomic operation at a time. *)
From Coq Require Import NArith Arith List Bool Permutation Lia.
From Verif Require Import Base Bia Node Api Versions Heap SpecH HeapP HeapHist HeapHistP HeapBulk HeapRun HeapOpP HeapPropP HeapRunP Rc RcP RcHistP Arcs ArcsP Conc HeapPlaceP.
Import ListNotations.
Open Scope nat_scope.

Section ArcsRcP.
Context {E : Env} {K V R : Type} {KK : Key K}.
Context (rdef : R) (rd : R -> R -> R).
Notation heap := (heap K V).
Notation state := (arcs_state K V).
Implicit Types (h : heap) (cnt : counts) (s : state) (fs : list (addr * list addr)).

Lemma then_app s es s1 es' s2 : arcs_then s es s1 -> arcs_then s1 es' s2 -> arcs_then s (es ++ es') s2.
Proof.
  intros H H'. induction H' as [|es' s1' es'' s' _ IH Hst]; [rewrite app_nil_r; exact H|]. rewrite app_assoc. eapply at_snoc; eassumption.
Qed.
Lemma then_step s es s' : arcs_step s es s' -> arcs_then s es s'.
Proof. intros H. change es with ([] ++ es). eapply at_snoc; [constructor|exact H]. Qed.

Lemma put_id a c h : nth_error h a = Some c -> put a c h = h.
Proof.
  intros H. unfold put. destruct (nth_error_split _ _ H) as (l1 & l2 & -> & <-).
  rewrite firstn_app, firstn_all, Nat.sub_diag, firstn_O, app_nil_r. f_equal.
  replace (S (length l1)) with (length (l1 ++ [c])) by (rewrite app_length; cbn [length]; lia).
  replace (l1 ++ c :: l2) with ((l1 ++ [c]) ++ l2) by (rewrite <- app_assoc; reflexivity).
  rewrite skipn_app, skipn_all, Nat.sub_diag. reflexivity.
Qed.

(** Getting hold of an [Arc] to a cell: clone it if it is there already, else make
    it from what is in it. *)
Lemma gain h (P : addr -> Prop) (HP : closed h P) (Hlt : forall b c r, P b -> nth_error h b = Some c -> In r (refs c) -> r < b) :
  forall m a, a < m -> P a -> forall cnt own, good h cnt own [] ->
  exists es cnt', arcs_then (ArcsState h cnt own []) es (ArcsState h cnt' (a :: own) []) /\ forall x, a < x -> cnt' x = cnt x.
Proof.
  induction m as [|m IH]; intros a Hm Ha cnt own G; [lia|].
  destruct (Nat.eq_dec (cnt a) 0) as [H0|H0].
  - destruct (HP a Ha) as (c & Hc & HF).
    assert (Hall : forall l, Forall P l -> Forall (fun r => r < a) l -> forall cnt own, good h cnt own [] ->
      exists es cnt' own', arcs_then (ArcsState h cnt own []) es (ArcsState h cnt' own' []) /\ Permutation own' (l ++ own) /\ forall x, a <= x -> cnt' x = cnt x).
    { induction l as [|r l IHl]; intros HPl Hll cnt1 own1 G1.
      - exists [], cnt1, own1. split; [constructor|]. split; [apply Permutation_refl|reflexivity].
      - pose proof (Forall_inv Hll) as Hra. cbv beta in Hra.
        destruct (IH r ltac:(lia) (Forall_inv HPl) cnt1 own1 G1) as (es1 & cnt2 & Ht1 & Hs1).
        pose proof (then_fine (ArcsState h cnt1 own1 []) _ _ G1 Ht1) as G2.
        destruct (IHl (Forall_inv_tail HPl) (Forall_inv_tail Hll) cnt2 (r :: own1) G2) as (es2 & cnt3 & own3 & Ht2 & Hp2 & Hs2).
        exists (es1 ++ es2), cnt3, own3. split; [eapply then_app; eassumption|]. split.
        + rewrite Hp2. cbn [app]. symmetry. apply Permutation_middle.
        + intros x Hx. rewrite Hs2 by exact Hx. apply Hs1. lia. }
    destruct (Hall (refs c) HF) with (cnt := cnt) (own := own) as (es & cnt' & own' & Ht & Hp & Hs); [|exact G|].
    { apply Forall_forall. intros r Hr. exact (Hlt a c r Ha Hc Hr). }
    exists (es ++ [Allocated a]), (set_count cnt' a 1). split.
    + eapply at_snoc; [exact Ht|]. rewrite <- (put_id a c h Hc) at 2. constructor.
      * exact Hp.
      * intros [H|[]]. cbn [cnts] in H. rewrite Hs in H by lia. contradiction.
      * apply Nat.lt_le_incl. eapply nth_len. exact Hc.
    + intros x Hx. rewrite set_other by lia. apply Hs. lia.
  - destruct (good_reached _ _ _ G a H0) as (r & Hr & Hx). exists [], (set_count cnt a (S (cnt a))). split.
    + apply then_step. econstructor; eassumption.
    + intros x Hlx. apply set_other. lia.
Qed.

(** [release] is one order of destruction among others. *)
Lemma release_steps h cnt' own : forall fuel fs cnt, release fuel h (left_in fs) cnt = Ret cnt' ->
  exists es, arcs_then (ArcsState h cnt own fs) es (ArcsState h cnt' own []).
Proof.
  induction fuel as [|fuel IH]; induction fs as [|[b l] fs IHf]; intros cnt Hr.
  - injection Hr as ->. exists []. constructor.
  - destruct l as [|a l]; [|discriminate]. destruct (IHf cnt Hr) as (es & Ht). exists ([Freed b] ++ es). eapply then_app; [|exact Ht].
    apply then_step, as_destroy. apply (ds_free h cnt own [] b fs).
  - injection Hr as ->. exists []. constructor.
  - destruct l as [|a l].
    + destruct (IHf cnt Hr) as (es & Ht). exists ([Freed b] ++ es). eapply then_app; [|exact Ht].
      apply then_step, as_destroy. apply (ds_free h cnt own [] b fs).
    + change (left_in ((b, a :: l) :: fs)) with (a :: left_in ((b, l) :: fs)) in Hr. cbn [release] in Hr.
      destruct (nth_error h a) as [c|] eqn:Hc; [|discriminate]. destruct (cnt a) as [|[|n]] eqn:Hn; [discriminate| |].
      * change (refs c ++ left_in ((b, l) :: fs)) with (left_in ((a, refs c) :: (b, l) :: fs)) in Hr. destruct (IH _ _ Hr) as (es & Ht).
        exists ([] ++ es). eapply then_app; [|exact Ht]. apply then_step, as_destroy. apply (ds_field h cnt own [] b a l fs). cbn [app].
        apply de_last; assumption.
      * destruct (IH _ _ Hr) as (es & Ht). exists ([] ++ es). eapply then_app; [|exact Ht]. apply then_step, as_destroy.
        apply (ds_field h cnt own [] b a l fs). apply de_more; assumption.
Qed.

Lemma sound_good h cnt vs (ts : list (trie K V)) : sound h cnt vs ts -> good h cnt (map addr_of vs) [].
Proof.
  intros HS. pose proof (sound_acyclic _ _ _ _ HS) as Hac. destruct HS as (_ & (HB1 & HB2) & _). split.
  - intros a. change (occ (left_in []) a) with 0. rewrite Nat.add_0_r. apply HB1.
  - intros a [H|[]]. apply HB2, H.
  - constructor.
  - intros a [].
  - exists (fun x => x). exact Hac.
Qed.

Lemma junk_step cnt own h h' : (forall a, cnt a <> 0 -> a < length h) -> junk cnt h h' ->
  arcs_then (ArcsState h cnt own []) [] (ArcsState h' cnt own []).
Proof.
  intros Hl (H1 & H2). apply then_step. constructor; [lia|]. intros a [Ha|[]]. apply H2, Ha.
Qed.

(** A call, or [clone], at one go. *)
Lemma gain_steps h cnt vs ts h1 n t cnt' : sound h cnt vs ts -> ext h h1 -> rep h1 n t ->
  acquire (rc_fuel h1) h1 [addr_of n] cnt = Ret cnt' ->
  exists es, arcs_then (ArcsState h cnt (map addr_of vs) []) es (ArcsState h1 cnt' (map addr_of (vs ++ [n])) []).
Proof.
  intros HS He Hr Ha. destruct (sound_gain rdef rd _ _ _ _ _ _ _ HS He Hr) as (cnt2 & Ha2 & HS'). rewrite Ha2 in Ha. injection Ha as ->.
  pose proof (sound_good _ _ _ _ HS) as G. pose proof (sound_good _ _ _ _ HS') as G'.
  assert (Hj : arcs_step (ArcsState h cnt (map addr_of vs) []) [] (ArcsState h1 cnt (map addr_of vs) [])).
  { constructor; [apply ext_len, He|]. intros a [H|[]]. destruct He as [new ->]. apply nth_error_app1. exact (g_len _ _ _ _ G a (or_introl H)). }
  assert (G1 : good h1 cnt (map addr_of vs) []) by exact (step_fine (ArcsState h cnt (map addr_of vs) []) _ _ G Hj).
  destruct (gain h1 (inside h1 n)) with (m := S (addr_of n)) (a := addr_of n) (cnt := cnt) (own := map addr_of vs) as (es & cnt3 & Ht & _).
  - intros b Hb. destruct (inside_child h1 n t Hr b Hb) as (c & Hc & HFc). exists c. split; [exact Hc|].
    eapply Forall_impl; [|exact HFc]. intros r Hx. exact (proj2 Hx).
  - intros b c r Hb Hc Hin. destruct (inside_child h1 n t Hr b Hb) as (c' & Hc' & HFc). rewrite Hc in Hc'. injection Hc' as <-.
    exact (proj1 (proj1 (Forall_forall _ _) HFc r Hin)).
  - lia.
  - constructor.
  - exact G1.
  - pose proof (then_fine (ArcsState h1 cnt (map addr_of vs) []) _ _ G1 Ht) as G3.
    assert (HP : Permutation (addr_of n :: map addr_of vs) (map addr_of (vs ++ [n]))).
    { rewrite map_app. apply Permutation_cons_append. }
    exists (([] ++ es) ++ []). eapply at_snoc; [eapply then_app; [apply then_step, Hj|exact Ht]|]. constructor; [exact HP|].
    exact (good_determined _ _ _ _ _ G3 G' HP).
Qed.

Theorem arcs_rc cs h cnt vs : rsteps rdef rd cs h cnt vs -> exists es, arcs_run es (ArcsState h cnt (map addr_of vs) []).
Proof.
  induction 1 as [|cs h cnt vs c h' cnt' vs' Hrs (es & Hrun) Hst]; [exists []; constructor|].
  destruct (rsteps_sound _ _ _ _ _ _ Hrs) as (ts & _ & HS). destruct (rstep_sound _ _ _ _ _ _ _ _ _ _ HS Hst) as (ts' & _ & HS').
  assert (H : exists es', arcs_then (ArcsState h cnt (map addr_of vs) []) es' (ArcsState h' cnt' (map addr_of vs') [])).
  { destruct Hst as [h cnt vs n h1 cnt' h' Hn Ha Hj|h cnt vs i n cnt' h' Hn Ha Hj|h cnt vs c n x h1 cnt' h' HU Hr Ha Hj|h cnt vs c h' HU Hr Hj|h cnt vs i n cnt' h' Hn Ha Hj].
    - destruct (hm_new_ok _ _ _ Hn) as (He & Hr & _). destruct (gain_steps _ _ _ _ _ _ _ _ HS He Hr Ha) as (es1 & Ht).
      exists (es1 ++ []). eapply then_app; [exact Ht|]. apply junk_step; [|exact Hj]. intros a Hx. rewrite <- (proj1 Hj). exact (proj2 (proj1 (proj2 HS')) a Hx).
    - pose proof (nth_rel _ _ _ (proj1 HS) i) as Ho. rewrite Hn in Ho. inversion Ho as [x t Ht E1 E2|]; subst.
      destruct (gain_steps _ _ _ _ _ _ _ _ HS (ext_refl h) Ht Ha) as (es1 & Ht1).
      exists (es1 ++ []). eapply then_app; [exact Ht1|]. apply junk_step; [|exact Hj]. intros a Hx. rewrite <- (proj1 Hj). exact (proj2 (proj1 (proj2 HS')) a Hx).
    - pose proof (hrun_ok rdef rd h vs ts c (proj1 HS) HU) as Ho. rewrite Hr in Ho. inversion Ho as [p [t y] (He & Hp & Hg & _ & Hs) E1 E2| |]; subst.
      cbn [fst snd] in *. destruct (gain_steps _ _ _ _ _ _ _ _ HS He Hp Ha) as (es1 & Ht).
      exists (es1 ++ []). eapply then_app; [exact Ht|]. apply junk_step; [|exact Hj]. intros a Hx. rewrite <- (proj1 Hj). exact (proj2 (proj1 (proj2 HS')) a Hx).
    - exists []. apply junk_step; [|exact Hj]. exact (proj2 (proj1 (proj2 HS))).
    - destruct (remove_split rdef rd _ _ _ Hn) as (l1 & l2 & Hv & Hv' & Hl).
      assert (HP : Permutation (map addr_of vs) (addr_of n :: map addr_of (remove_nth i vs))).
      { rewrite Hv', Hv, !map_app. cbn [map]. symmetry. apply Permutation_middle. }
      assert (Hrel : exists es1, arcs_then (ArcsState h cnt (addr_of n :: map addr_of (remove_nth i vs)) []) es1 (ArcsState h cnt' (map addr_of (remove_nth i vs)) [])).
      { unfold rc_fuel in Ha. cbn [release] in Ha. destruct (nth_error h (addr_of n)) as [c|] eqn:Hc; [|discriminate].
        destruct (cnt (addr_of n)) as [|[|k]] eqn:Hk; [discriminate| |].
        - change (refs c ++ []) with (left_in [(addr_of n, refs c)]) in Ha. destruct (release_steps _ _ (map addr_of (remove_nth i vs)) _ _ _ Ha) as (es1 & Ht).
          exists ([] ++ es1). eapply then_app; [|exact Ht]. apply then_step, as_drop, de_last; assumption.
        - change ([] : list addr) with (left_in []) in Ha. destruct (release_steps _ _ (map addr_of (remove_nth i vs)) _ _ _ Ha) as (es1 & Ht).
          exists ([] ++ es1). eapply then_app; [|exact Ht]. apply then_step, as_drop, de_more; assumption. }
      destruct Hrel as (es1 & Ht). exists (([] ++ es1) ++ []). eapply then_app; [eapply then_app; [|exact Ht]|].
      + apply then_step. constructor; [exact HP|reflexivity].
      + apply junk_step; [|exact Hj]. intros a Hx. rewrite <- (proj1 Hj). exact (proj2 (proj1 (proj2 HS')) a Hx). }
  destruct H as (es' & Ht). exists (es ++ es'). eapply then_app; [exact Hrun|exact Ht].
Qed.

(** A map that is held all along reads the same, whatever the threads do. *)
Lemma inside_reach h n a : inside h n a -> reach h (addr_of n) a.
Proof.
  induction 1 as [n|a c child x Hn Hc Hi IH|a k v next z x Hn Hi IH]; [constructor| |].
  - eapply re_next; [exact Hn|cbn [refs]; apply in_map, Hc|exact IH].
  - eapply re_next; [exact Hn|left; reflexivity|exact IH].
Qed.

Theorem arcs_answers cs h cnt vs n s : rsteps rdef rd cs h cnt vs -> In n vs ->
  arcs_keep (addr_of n) (ArcsState h cnt (map addr_of vs) []) s -> alike h (mem s) n n.
Proof.
  intros Hrs Hn Hk. destruct (arcs_rc _ _ _ _ Hrs) as (es & Hrun). destruct (rsteps_sound _ _ _ _ _ _ Hrs) as (ts & _ & HS).
  destruct (f2_rep _ _ _ _ (proj1 HS) Hn) as (t & Ht).
  assert (Ht' : rep (mem s) n t).
  { eapply rep_agree; [exact Ht|]. intros b Hb. exact (proj2 (arcs_stay _ _ _ _ _ Hrun Hk (inside_reach _ _ _ Hb))). }
  destruct (rep_answers _ _ _ Ht) as (H1 & H2 & H3). destruct (rep_answers _ _ _ Ht') as (H1' & H2' & H3').
  split; [congruence|]. split; [congruence|]. intros Q KQ q. rewrite H3, H3'. reflexivity.
Qed.

End ArcsRcP.
