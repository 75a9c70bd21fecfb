(** What find, remove and insert do to loose maps. *)
From Coq Require Import NArith Arith List Bool Lia ZifyBool ZifyN ZifyNat Permutation.
From Verif Require Import Base Words WordsP Flag FlagP Bia BiaP Node Inv InsertP Api Profile Eff EffP Ask SpecAsk AskP.
Import ListNotations.
Open Scope N_scope.

Section AskOpP.
Context {E : Env} {K V L W : Type}.
Notation event := (event (A := @reply E K V L W)).
Notation trace := (list event).
Implicit Types tr : trace.

Lemma failed_here c : failed [@broke _ (@reply E K V L W) c].
Proof. exists c. left. reflexivity. Qed.
Lemma failed_cons (e : event) tr : failed tr -> failed (e :: tr).
Proof. intros [c Hc]. exists c. right. assumption. Qed.
Lemma failed_app tr tr' : failed tr' -> failed (tr ++ tr').
Proof. intros [c Hc]. exists c. apply in_or_app. auto. Qed.
Lemma no_yes_app tr tr' : no_yes tr -> no_yes tr' -> no_yes (tr ++ tr').
Proof. intros H1 H2. apply Forall_app. auto. Qed.
Lemma no_into_app tr tr' : no_into tr -> no_into tr' -> no_into (tr ++ tr').
Proof. intros H1 H2. apply Forall_app. auto. Qed.

(** * find *)

Definition find_post (es : list (K * V)) (q : L) tr (o : outcome (option (K * V))) : Prop :=
  match o with
  | Ret (Some e) => In e es /\ exists tr1, tr = tr1 ++ [answer (CEq (fst e) q) true] /\ no_yes tr1 /\ no_into tr1
  | Ret None => no_yes tr /\ no_into tr
  | Panic => failed tr
  | Diverge => False
  end.

Lemma as_find_post s q : gives (as_find s q) (find_post (m_visit (MS s)) q).
Proof.
  unfold as_find, ask. cbn [pbind]. apply gives_ask; [apply failed_here|]. intros [|]; apply gives_ret; cbn [find_post].
  - split; [left; reflexivity|]. exists []. repeat split; constructor.
  - split; repeat constructor.
Qed.

Lemma find_post_no es es' q k tr o : find_post es q tr o -> (forall e, In e es -> In e es') ->
  find_post es' q (answer (CEq k q) false :: tr) o.
Proof.
  intros H Hi. destruct o as [[e|]| |]; cbn [find_post] in *.
  - destruct H as (H1 & tr1 & -> & H2 & H3). split; [auto|]. exists (answer (CEq k q) false :: tr1).
    split; [reflexivity|]. split; constructor; auto.
  - destruct H as [H1 H2]. split; constructor; auto.
  - apply failed_cons. assumption.
  - assumption.
Qed.

Lemma al_find_post l q : gives (al_find l q) (find_post (l_visit l) q).
Proof.
  induction l as [k v n IH z|k v s z]; cbn [al_find l_key l_value ask pbind]; (apply gives_ask; [apply failed_here|]); intros [|].
  - apply gives_ret. cbn [find_post]. split; [left; reflexivity|]. exists []. repeat split; constructor.
  - eapply gives_weak; [exact IH|]. intros tr o H. eapply find_post_no; [exact H|]. intros e He. right. assumption.
  - apply gives_ret. cbn [find_post]. split; [left; reflexivity|]. exists []. repeat split; constructor.
  - eapply gives_weak; [apply as_find_post|]. intros tr o H. eapply find_post_no; [exact H|]. intros e He. right. assumption.
Qed.

Lemma find_post_sub es es' q tr o : find_post es q tr o -> (forall e, In e es -> In e es') -> find_post es' q tr o.
Proof. intros H Hi. destruct o as [[e|]| |]; cbn [find_post] in *; try assumption. destruct H as (H1 & H2). auto. Qed.

Lemma am_find_post n : forall d q f, loose d n -> flag_at d f -> gives (am_find n q (Some f)) (find_post (m_visit n) q).
Proof.
  induction n as [bits values x IH|l|s] using mnode_ind'; intros d q f HL Hf; cbn [am_find].
  - inversion HL as [| |? ? ? ? HU Hok Hne Hx Hch]; subst. rewrite Forall_forall in IH. cbn [unwrap lift pbind].
    destruct Hf as (Hd & i & Hi & Hfl). rewrite Hfl. rewrite bat_map.
    destruct (bat (BIA bits values _) (2 ^ i)) as [c|e] eqn:Hb.
    2:{ apply gives_ret. split; constructor. }
    destruct (bat_split _ _ _ _ _ _ Hok Hb) as (l1 & l2 & Hv & _).
    assert (Hin : In c values) by (rewrite Hv; apply in_or_app; right; left; reflexivity).
    assert (Hsub : forall e, In e (m_visit c) -> In e (m_visit (MC (BIA bits values (lenN (concat (map m_visit values))))))).
    { intros e He. cbn [m_visit bvalues]. apply in_concat. exists (m_visit c). split; [apply in_map; assumption|assumption]. }
    destruct c as [b|l|s].
    + apply gives_lift.
      * intros nx Hnx. destruct b as [bb vv xx]. specialize (Hch _ Hin). inversion Hch as [| |? ? ? ? HU' _ _ _ _]; subst.
        destruct (flag_usable (fl_hash f) (fl_depth f + 1) HU') as (g & Hg & Hga & _). unfold flag_next in Hnx. rewrite Hg in Hnx.
        injection Hnx as <-. eapply gives_weak; [apply (IH _ Hin (fl_depth f + 1)); assumption|]. intros tr o H. eapply find_post_sub; eassumption.
      * intros Hnx. destruct b as [bb vv xx]. specialize (Hch _ Hin). inversion Hch as [| |? ? ? ? HU' _ _ _ _]; subst.
        destruct (flag_usable (fl_hash f) (fl_depth f + 1) HU') as (g & Hg & Hga & _). unfold flag_next in Hnx. congruence.
      * intros Hnx. destruct b as [bb vv xx]. specialize (Hch _ Hin). inversion Hch as [| |? ? ? ? HU' _ _ _ _]; subst.
        destruct (flag_usable (fl_hash f) (fl_depth f + 1) HU') as (g & Hg & Hga & _). unfold flag_next in Hnx. congruence.
    + eapply gives_weak; [apply al_find_post|]. intros tr o H. eapply find_post_sub; eassumption.
    + eapply gives_weak; [apply as_find_post|]. intros tr o H. eapply find_post_sub; eassumption.
  - apply al_find_post.
  - apply as_find_post.
Qed.

(** * remove *)

(** [e] is gone from [old]; what came before it in its list was cloned. *)
Definition taken (old new : list (K * V)) (e : K * V) (q : L) tr : Prop :=
  In (answer (CEq (fst e) q) true) tr /\
  exists l l', Permutation old (e :: l) /\ Forall2 (copied tr) l l' /\ Permutation new l'.

Lemma copied_refl tr (l : list (K * V)) : Forall2 (copied tr) l l.
Proof. induction l; constructor; [left; reflexivity|assumption]. Qed.
Lemma copied_more tr tr' l l' : (forall e, In e tr -> In e tr') -> Forall2 (copied tr) l l' -> Forall2 (copied tr') l l'.
Proof. intros H HF. induction HF as [|e e' l l' He HF IH]; constructor; [|assumption]. destruct He as [->|[H1 H2]]; [left; reflexivity|right; auto]. Qed.

Lemma taken_more old new e q tr tr' : (forall x, In x tr -> In x tr') -> taken old new e q tr -> taken old new e q tr'.
Proof. intros H (H1 & l & l' & HP & HF & HQ). split; [auto|]. exists l, l'. split; [assumption|]. split; [eapply copied_more; eassumption|assumption]. Qed.

Definition lrem_post (l : lnode K V) (q : L) tr (o : outcome (lremove_result K V)) : Prop :=
  match o with
  | Ret LRNotFound => no_yes tr /\ no_into tr /\ (forall e, In e (l_visit l) -> In (answer (CEq (fst e) q) false) tr)
  | Ret (LRL n k v) => lok n /\ taken (l_visit l) (l_visit n) (k, v) q tr /\ no_into tr
  | Ret (LRS s k v) => taken (l_visit l) (m_visit (MS s)) (k, v) q tr /\ no_into tr
  | Panic => failed tr
  | Diverge => False
  end.

Lemma taken_clone old new e q tr k v k' v' (tr' : trace) : taken old new e q tr ->
  (forall x, In x tr -> In x tr') -> In (answer (CKey k) k') tr' -> In (answer (CValue v) v') tr' ->
  taken ((k, v) :: old) ((k', v') :: new) e q tr'.
Proof.
  intros H Hi H1 H2. apply (taken_more _ _ _ _ _ tr') in H; [|assumption]. destruct H as (H0 & l & l' & HP & HF & HQ).
  split; [assumption|]. exists ((k, v) :: l), ((k', v') :: l'). split; [rewrite HP; apply perm_swap|].
  split; [constructor; [right; auto|assumption]|]. rewrite HQ. reflexivity.
Qed.

Lemma al_remove_from_post l q : lok l -> gives (al_remove_from l q) (lrem_post l q).
Proof.
  induction l as [k v n IH z|k v s z]; intros Hl; cbn [al_remove_from l_key ask pbind]; (apply gives_ask; [apply failed_here|]); intros [|].
  - apply gives_ret. cbn [lrem_post l_visit]. destruct Hl as [_ Hl]. split; [assumption|]. split; [|repeat constructor].
    split; [left; reflexivity|]. exists (l_visit n), (l_visit n). split; [reflexivity|]. split; [apply copied_refl|reflexivity].
  - destruct Hl as [_ Hl]. eapply gives_bind; [exact (IH Hl)| | |].
    + intros tr r Hr. destruct r as [|n' k' v'|s' k' v']; cbn [lrem_post] in Hr.
      * apply gives_ret. cbn [lrem_post]. rewrite app_nil_r. destruct Hr as (H1 & H2 & H3).
        split; [constructor; auto|]. split; [constructor; auto|]. intros e [<-|He]; [left; reflexivity|right; auto].
      * destruct Hr as (H1 & H2 & H3). apply gives_ask; [apply failed_cons, failed_app, failed_here|]. intros ck.
        apply gives_ask; [apply failed_cons, failed_app, failed_cons, failed_here|]. intros cv. apply gives_ret.
        cbn [lrem_post l_visit]. split; [apply lok_new; assumption|]. split.
        2:{ constructor; [reflexivity|]. apply no_into_app; [assumption|]. repeat constructor. }
        cbn [l_new l_visit]. eapply taken_clone; [exact H2| | |].
        { intros y Hy. right. apply in_or_app. auto. }
        { right. apply in_or_app. right. left. reflexivity. }
        { right. apply in_or_app. right. right. left. reflexivity. }
      * destruct Hr as (H2 & H3). apply gives_ask; [apply failed_cons, failed_app, failed_here|]. intros ck.
        apply gives_ask; [apply failed_cons, failed_app, failed_cons, failed_here|]. intros cv. apply gives_ret.
        cbn [lrem_post l_visit]. split; [apply lok_new; exact I|]. split.
        2:{ constructor; [reflexivity|]. apply no_into_app; [assumption|]. repeat constructor. }
        cbn [l_new l_visit]. eapply taken_clone; [exact H2| | |].
        { intros y Hy. right. apply in_or_app. auto. }
        { right. apply in_or_app. right. left. reflexivity. }
        { right. apply in_or_app. right. right. left. reflexivity. }
    + intros tr H. apply failed_cons. exact H.
    + intros tr [].
  - apply gives_ret. cbn [lrem_post l_visit]. split; [|repeat constructor]. split; [left; reflexivity|].
    eexists _, _. split; [reflexivity|]. split; [apply copied_refl|reflexivity].
  - unfold as_remove, ask. cbn [pbind]. apply gives_ask; [apply failed_cons, failed_here|]. intros [|]; cbn [pbind].
    + apply gives_ask; [do 2 apply failed_cons; apply failed_here|]. intros ck.
      apply gives_ask; [do 3 apply failed_cons; apply failed_here|]. intros cv. apply gives_ret. cbn [lrem_post]. split; [|repeat constructor].
      split; [right; left; reflexivity|]. exists [(k, v)], [(ck, cv)]. split; [apply perm_swap|].
      split; [|reflexivity]. constructor; [|constructor]. right. cbn [fst snd]. split; [do 2 right; left; reflexivity|do 3 right; left; reflexivity].
    + apply gives_ret. cbn [lrem_post]. split; [repeat constructor|]. split; [repeat constructor|].
      intros e [<-|[<-|[]]]; [left; reflexivity|right; left; reflexivity].
Qed.

(** The node left by a removal: none, or one with its entries. *)
Definition left_by (r : remove_result K V) : option (option (mnode K V) * (K * V)) :=
  match r with
  | RNotFound => None
  | RC c k v => Some (Some (MC c), (k, v))
  | RL l k v => Some (Some (ML l), (k, v))
  | RS s k v => Some (Some (MS s), (k, v))
  | RZ k v => Some (None, (k, v))
  end.

Definition rem_post (d : N) (n : mnode K V) (q : L) tr (o : outcome (remove_result K V)) : Prop :=
  match o with
  | Ret r =>
      no_into tr /\
      match left_by r with
      | None => no_yes tr
      | Some (Some n', e) => loose d n' /\ m_visit n' <> [] /\ taken (m_visit n) (m_visit n') e q tr
      | Some (None, e) => taken (m_visit n) [] e q tr
      end
  | Panic => failed tr \/ checked = true
  | Diverge => False
  end.

Lemma as_remove_post d s q : gives (as_remove s q) (rem_post d (MS s) q).
Proof.
  unfold as_remove, ask. cbn [pbind]. apply gives_ask; [left; apply failed_here|]. intros [|]; apply gives_ret; cbn [rem_post left_by].
  - split; [repeat constructor|]. split; [left; reflexivity|]. exists [], []. repeat split; auto.
  - split; repeat constructor.
Qed.

Lemma al_remove_post d l q : lok l -> gives (al_remove l q) (rem_post d (ML l) q).
Proof.
  intros Hl. unfold al_remove. eapply gives_bind; [apply al_remove_from_post; assumption| | |].
  - intros tr r Hr. apply gives_ret. rewrite app_nil_r. destruct r as [|n k v|s k v]; cbn [lrem_post rem_post left_by] in *.
    + destruct Hr as (H1 & H2 & _). auto.
    + destruct Hr as (H1 & H2 & H3). split; [assumption|]. split; [constructor; assumption|]. split; [destruct n; discriminate|exact H2].
    + destruct Hr as (H2 & H3). split; [assumption|]. split; [constructor|]. split; [discriminate|exact H2].
  - intros tr H. left. exact H.
  - intros tr [].
Qed.

(** Taking an entry from one child takes it from the branch. *)
Lemma taken_child l1 l2 (c : mnode K V) new new' e q tr : taken (m_visit c) new e q tr ->
  Permutation new' (concat (map m_visit l1) ++ new ++ concat (map m_visit l2)) ->
  taken (concat (map m_visit (l1 ++ c :: l2))) new' e q tr.
Proof.
  intros (H1 & l & l' & HP & HF & HQ) HN. split; [assumption|].
  exists (l ++ concat (map m_visit l1) ++ concat (map m_visit l2)), (l' ++ concat (map m_visit l1) ++ concat (map m_visit l2)).
  split; [|split].
  - rewrite concat_split, HP. rewrite Permutation_app_swap_app. reflexivity.
  - apply Forall2_app; [assumption|apply copied_refl].
  - rewrite HN, HQ. apply Permutation_app_swap_app.
Qed.

Lemma Forall2_len {A B} (R : A -> B -> Prop) l l' : Forall2 R l l' -> length l = length l'.
Proof. intros H. induction H; cbn [length]; congruence. Qed.

Lemma taken_len old new e q tr : taken old new e q tr -> lenN old = 1 + lenN new.
Proof.
  intros (_ & l & l' & HP & HF & HQ). unfold lenN. rewrite (Permutation_length HP), (Permutation_length HQ). cbn [length].
  rewrite (Forall2_len _ _ _ HF). lia.
Qed.

Lemma lenN_perm {A} (l l' : list A) : Permutation l l' -> lenN l = lenN l'.
Proof. intros H. unfold lenN. rewrite (Permutation_length H). reflexivity. Qed.

Lemma update_loose d bits l1 l2 (c c' : mnode K V) x y i : usable d -> okv (max_ones fw) bits (l1 ++ c :: l2) ->
  N.testbit bits i = true -> rank bits i = lenN l1 -> (forall a, In a (l1 ++ c :: l2) -> loose (d + 1) a) ->
  loose (d + 1) c' -> y = lenN (concat (map m_visit l1)) + lenN (m_visit c') + lenN (concat (map m_visit l2)) ->
  bupdated (BIA bits (l1 ++ c :: l2) x) (2 ^ i) c' y = Ok (BIA bits (l1 ++ c' :: l2) y) /\
  loose d (MC (BIA bits (l1 ++ c' :: l2) y)).
Proof.
  intros HU Hok Ht Hr Hch Hc' Hy. destruct (bupdated_split fw bits l1 l2 c c' i x y Hok Ht Hr) as [Hok' He].
  split; [exact He|]. constructor; try assumption.
  - left. destruct l1; discriminate.
  - rewrite concat_split, !lenN_app. lia.
  - intros a Ha. apply in_app_or in Ha. destruct Ha as [Ha|[<-|Ha]]; [|assumption|];
      apply Hch; apply in_or_app; [left|right; right]; assumption.
Qed.

Lemma am_remove_post n : forall d q f, loose d n -> (forall bits values x, n = MC (BIA bits values x) -> exists g, f = Some g /\ flag_at d g) ->
  gives (am_remove n q f) (rem_post d n q).
Proof.
  induction n as [bits values x IH|l|s] using mnode_ind'; intros d q f0 HL Hf; cbn [am_remove].
  - inversion HL as [| |d1 b1 v1 x1 HU Hok Hne Hx Hch]; subst d1 b1 v1 x1. rewrite Forall_forall in IH.
    destruct (Hf _ _ _ eq_refl) as (f & -> & Hd & i & Hi & Hfl). cbn [unwrap lift pbind]. rewrite Hfl. rewrite bat_map.
    subst d.
    destruct (bat (BIA bits values x) (2 ^ i)) as [c|e] eqn:Hb.
    2:{ apply gives_ret. split; constructor. }
    destruct (bat_split _ _ _ _ _ _ Hok Hb) as (l1 & l2 & Hv & Ht & Hr).
    assert (Hin : In c values) by (rewrite Hv; apply in_or_app; right; left; reflexivity).
    pose proof (Hch _ Hin) as Hc. set (d := fl_depth f) in *.
    assert (Hsz : lenN (concat (map m_visit values)) = lenN (concat (map m_visit l1)) + lenN (m_visit c) + lenN (concat (map m_visit l2))).
    { rewrite Hv, concat_split, !lenN_app. lia. }
    rewrite <- Hx in Hsz. subst values.
    apply gives_lift.
    2:{ intros Hnx. right. unfold flag_next in Hnx. destruct (flag_any (fl_hash f) (fl_depth f + 1)) as [(g & Hg & _)|[[Hg _]|[_ Hg]]]; congruence. }
    2:{ intros Hnx. unfold flag_next in Hnx. destruct (flag_any (fl_hash f) (fl_depth f + 1)) as [(g & Hg & _)|[[Hg _]|[Hg _]]]; congruence. }
    intros nx Hnx.
    assert (Hnf : forall bits0 values x0, c = MC (BIA bits0 values x0) -> exists g, nx = Some g /\ flag_at (d + 1) g).
    { intros bits0 vs x0 ->. inversion Hc as [| |? ? ? ? HU' _ _ _ _]; subst.
      destruct (flag_usable (fl_hash f) (fl_depth f + 1) HU') as (g & Hg & Hga & _). unfold flag_next in Hnx. rewrite Hg in Hnx.
      injection Hnx as <-. eauto. }
    eapply gives_bind; [apply (IH _ Hin (d + 1)); assumption| | |].
    2:{ intros tr H. exact H. }
    2:{ intros tr []. }
    intros tr r Hp. cbn [rem_post] in Hp. destruct Hp as [Hq Hp].
    assert (Hup : forall n' k v, loose (d + 1) n' -> taken (m_visit c) (m_visit n') (k, v) q tr ->
      gives (let+ size := lift (usub x 1) in
             let+ b := lift (unwrap_ok (bupdated (BIA bits (l1 ++ c :: l2) x) (2 ^ i) n' size)) in
             PRet (RC b k v)) (fun tr' o => rem_post d (MC (BIA bits (l1 ++ c :: l2) x)) q (tr ++ tr') o)).
    { intros n' k v Hn' Htk. pose proof (taken_len _ _ _ _ _ Htk) as Hlen.
      unfold usub. destruct (N.leb_spec 1 x); [|lia]. cbn [lift pbind].
      destruct (update_loose d bits l1 l2 c n' x (x - 1) i HU Hok Ht Hr Hch Hn' ltac:(lia)) as [He Hlo].
      rewrite He. cbn [unwrap_ok lift pbind]. apply gives_ret. cbn [rem_post left_by]. rewrite app_nil_r.
      split; [assumption|]. split; [assumption|]. split.
      { pose proof (loose_some _ _ Hn' ltac:(lia)) as Hs. cbn [m_visit bvalues]. rewrite concat_split. intros Habs.
        apply app_eq_nil in Habs. destruct Habs as [_ Habs]. apply app_eq_nil in Habs. tauto. }
      cbn [m_visit bvalues]. eapply taken_child; [exact Htk|]. rewrite concat_split. reflexivity. }
    destruct r as [|c' k v|l' k v|s' k v|k v]; cbn [left_by] in Hp.
    + apply gives_ret. rewrite app_nil_r. split; assumption.
    + destruct Hp as (H1 & H2 & H3). pose proof (loose_size _ _ H1) as Hs. cbn [m_size] in Hs.
      destruct (N.eqb_spec (bextra c') 0) as [H0|H0].
      { exfalso. apply H2. apply lenN_0. rewrite <- Hs. exact H0. }
      apply Hup; assumption.
    + destruct Hp as (H1 & H2 & H3). apply Hup; assumption.
    + destruct Hp as (H1 & H2 & H3). apply Hup; assumption.
    + pose proof (taken_len _ _ _ _ _ Hp) as Hlen. rewrite lenN_nil in Hlen.
      destruct (N.eqb_spec x 1) as [H1|H1].
      * apply gives_ret. rewrite app_nil_r. cbn [rem_post left_by]. split; [assumption|]. cbn [m_visit bvalues].
        eapply taken_child; [exact Hp|].
        rewrite (lenN_0 (concat (map m_visit l1))), (lenN_0 (concat (map m_visit l2))) by lia. reflexivity.
      * unfold usub. destruct (N.leb_spec 1 x); [|lia]. cbn [lift pbind].
        destruct (bremoved_split fw bits l1 l2 c i x (x - 1) Hok Hi Ht Hr) as (bits' & Hok' & He).
        rewrite He. cbn [unwrap_ok lift pbind]. apply gives_ret. cbn [rem_post left_by]. rewrite app_nil_r.
        assert (Hne' : concat (map m_visit (l1 ++ l2)) <> []).
        { intros Habs. rewrite map_app, concat_app in Habs. apply app_eq_nil in Habs. destruct Habs as [Ha1 Ha2].
          rewrite Ha1, Ha2, lenN_nil in Hsz. lia. }
        split; [assumption|]. split.
        { constructor; try assumption.
          - left. intros Habs. rewrite Habs in Hne'. apply Hne'. reflexivity.
          - rewrite map_app, concat_app, lenN_app. lia.
          - intros a Ha. apply Hch. apply in_app_or in Ha. apply in_or_app. destruct Ha; [left|right; right]; assumption. }
        split; [exact Hne'|]. cbn [m_visit bvalues]. eapply taken_child; [exact Hp|]. rewrite map_app, concat_app. reflexivity.
  - inversion HL as [|? ? Hl|]; subst. apply al_remove_post. assumption.
  - apply as_remove_post.
Qed.

End AskOpP.
