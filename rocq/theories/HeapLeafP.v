(** The joint operations on two leaves or lists, on the heap and on trees. *)
From Coq Require Import NArith Arith List Bool Lia ZifyBool ZifyN ZifyNat.
From Verif Require Import Base Words Flag Bia BiaP Node Api Trans Transform Joint JointT Heap SpecH HeapP HeapOpP HeapBulk HeapBulkP HeapJointP.
Import ListNotations.
Open Scope N_scope.

(** Adding a cell first. *)
Lemma wref_after {S X A B} (rel : heap S X -> A -> B -> Prop) w w' o o' : ext w w' -> wref rel w' o o' -> wref rel w o o'.
Proof. intros He H. eapply refines_weak; [exact H|]. intros p b (He2 & Hr). split; [eapply ext_trans; eassumption|exact Hr]. Qed.

Lemma hrights_loop_eq {L W} n : forall (right r : dlist L W) rights,
  hrights_loop n right r rights = rights_loop n (strip_l right) (strip_l r) rights.
Proof.
  induction n as [|n IH]; intros right r rights; cbn [hrights_loop rights_loop]; [reflexivity|].
  destruct r as [a k v l z|a k v s z]; cbn [dl_next strip_l l_next].
  - rewrite strip_entry_l. apply IH.
  - rewrite strip_entry_s. reflexivity.
Qed.

(** * transform_with_transmuted *)
Section TM.
Context {E : Env} {K V L W R : Type} {KK : Key K} {KL : Key L} {NZ : Noise K V}.
Context (rdef : R) (rd : R -> R -> R).
Context (both : transform_op ((K * V) * (L * W)) V R) (lop : transform_op (K * V) V R)
  (rop : transmute_op (L * W) K V R).
Notation heap := (heap K V).
Context (h0 : heap) (G : addr -> Prop) (HG : forall x, (length h0 <= x)%nat -> G x).

Lemma htm_apart_ok this right depth w : ext h0 w -> okx G w this ->
  wref (trel G) w (htm_apart rd lop rop this right depth w) (tm_apart rd lop rop (strip_x this) (strip_x right) depth).
Proof.
  intros He Ho. unfold htm_apart, tm_apart.
  eapply wref_let; [apply (hn_transform_ok rd h0 G HG lop this w He Ho)|]. intros l w1 He1 Hl. cbv beta iota.
  assert (He2 : ext h0 w1) by (eapply ext_trans; eassumption).
  eapply wref_let; [apply (hn_transmute_ok rd h0 G HG rop right w1 He2)|]. intros r w2 He3 Hr. cbv beta iota zeta.
  assert (He4 : ext h0 w2) by (eapply ext_trans; eassumption).
  rewrite two_flags_strip. apply wref_same. intros [lf rf].
  apply (trel_ext _ _ w2) in Hl; [|exact He3].
  rewrite <- (htred_rel _ _ _ _ Hl), <- (hnred_rel _ _ _ _ Hr). set (z := rd (htred l) (hnred r)).
  assert (Hp : pl G w2 (hnext_node (dn_next this)) (next_mnode (strip_x this))).
  { apply plx_pl. apply okx_pl. eapply okx_ext; [exact Ho|eapply ext_trans; eassumption]. }
  destruct (htout_rel _ _ _ _ _ _ Hp Hl) as [a t Ha|].
  - destruct (proj1 Hr) as [b u Hb|].
    + pose proof (as_t_ok G w2 _ _ (hlift_ok h0 G HG w2 a b t u lf rf z He4 Ha Hb)) as HX.
      unfold cnode_lift in HX |- *. destruct (c_lift _ _ _ _ _); exact HX.
    + apply wref_ret. apply ht_with_rel, Hl.
  - apply wref_ret. apply hn_with_rel, Hr.
Qed.

Lemma htm_s_impl_ok this right w : ext h0 w -> oks G w this ->
  wref (trel G) w (htm_s_impl rd both lop rop this right w) (Ret (tm_s_impl rd both lop rop (strip_s this) right)).
Proof.
  intros He Ho. unfold htm_s_impl, tm_s_impl. rewrite strip_entry_s. cbn [fst snd]. destruct (keqb _ _).
  - destruct (tcall both _) as [r|v r|r]; [apply wref_ret; reflexivity| |apply wref_ret, nrel_Z].
    apply (as_t_ok G w _ _ (new_s_ok h0 G HG w _ v r He)).
  - destruct (tcall lop _) as [lr|lv lr|lr], (mcall rop right) as [rk rv rr|rr].
    + apply (as_t_ok G w _ _ (new_l_ok h0 G HG w rk rv _ _ (rd lr rr) He (oks_pl _ _ _ Ho))).
    + apply wref_ret. reflexivity.
    + destruct (hs_new_plx h0 G HG w (s_key (strip_s this)) lv He) as (Hs & Hx).
      eapply wref_after; [exact Hx|]. apply (as_t_ok G _ _ _ (new_l_ok h0 G HG _ rk rv _ _ (rd lr rr) (ext_trans _ _ _ He Hx) Hs)).
    + apply (as_t_ok G w _ _ (new_s_ok h0 G HG w _ lv (rd lr rr) He)).
    + apply (as_t_ok G w _ _ (new_s_ok h0 G HG w _ rv (rd lr rr) He)).
    + apply wref_ret, nrel_Z.
Qed.

Definition with_rights {A B C} (rel : heap -> A -> B -> Prop) (w : heap) (p : A * C) (q : B * C) : Prop :=
  rel w (fst p) (fst q) /\ snd p = snd q.

Lemma htm_l_impl_ok this : forall rights w, ext h0 w -> okl G w this ->
  wref (with_rights (trel G)) w (htm_l_impl rd both lop rop this rights w) (Ret (tm_l_impl rd both lop rop (strip_l this) rights)).
Proof.
  assert (Hend : forall (this : dlist K V) w1 (p : htres R * list (L * W)) q, ext h0 w1 -> okl G w1 this -> with_rights (trel G) w1 p q ->
    wref (with_rights (trel G)) w1
     (let (next, rights) := p in
      let (result, rights) := match take_key (fst (dl_entry this)) rights with
        | Some (e, rights) => (tcall both (dl_entry this, e), rights)
        | None => (tcall lop (dl_entry this), rights) end in
      let* (t, w) := hl_transform_result rd this result next w1 in Ret ((t, rights), w))
     (Ret (let (next, rights) := q in
      let (result, rights) := match take_key (l_key (strip_l this)) rights with
        | Some (e, rights) => (tcall both ((l_key (strip_l this), l_value (strip_l this)), e), rights)
        | None => (tcall lop (l_key (strip_l this), l_value (strip_l this)), rights) end in
      (l_transform_result rd (strip_l this) result next, rights)))).
  { intros l w1 [next rights] [next' rights'] He Ho (Hn & Hr). cbn [fst snd] in Hn, Hr. subst rights'.
    rewrite strip_entry_l. cbn [fst].
    destruct (match take_key (l_key (strip_l l)) rights with Some _ => _ | None => _ end) as [result rights'].
    eapply wref_let; [apply (hl_transform_result_ok rd h0 G HG l result next next' w1 He Ho Hn)|].
    intros t w2 He2 Ht. apply wref_ret. split; [exact Ht|reflexivity]. }
  induction this as [a k v n IH z|a k v s z]; intros rights w He Ho; cbn [htm_l_impl tm_l_impl strip_l].
  - eapply wref_let; [apply (IH rights w He (proj2 Ho))|]. intros p w1 He1 Hp.
    apply (Hend (DLL a k v n z) w1 p); [eapply ext_trans; eassumption|eapply okl_ext; eassumption|exact Hp].
  - rewrite strip_entry_s. cbn [fst].
    eapply (wref_let (with_rights (trel G))).
    + instantiate (1 := match take_key (s_key (strip_s s)) rights with
        | Some (e, rights) => (tm_s_impl rd both lop rop (strip_s s) e, rights)
        | None => (s_transform lop (strip_s s), rights) end).
      destruct (take_key _ _) as [[e rights']|].
      * eapply wref_let; [apply (htm_s_impl_ok s e w He (proj2 Ho))|]. intros t w1 He1 Ht. apply wref_ret. split; [exact Ht|reflexivity].
      * eapply wref_let; [apply (hs_transform_ok h0 G HG lop s w He (proj2 Ho))|]. intros t w1 He1 Ht. apply wref_ret. split; [exact Ht|reflexivity].
    + intros p w1 He1 Hp.
      apply (Hend (DLS a k v s z) w1 p); [eapply ext_trans; eassumption|eapply okl_ext; eassumption|exact Hp].
Qed.

Lemma htm_rest_ok this rights : forall next next' w, ext h0 w -> okl G w this -> trel G w next next' ->
  wref (trel G) w (htm_rest rd rop this rights next w) (Ret (tm_rest rd rop (strip_l this) rights next')).
Proof.
  induction rights as [|e rights IH]; intros next next' w He Ho Hn; cbn [htm_rest tm_rest]; [apply wref_ret, Hn|].
  rewrite <- (htred_rel _ _ _ _ Hn).
  eapply (wref_let (trel G)).
  - instantiate (1 := match mcall rop e with
         | KTransmuted rk rv rr => t_cons (NL (strip_l this)) rk rv next' (rd rr (htred next))
         | KDropped rr => t_with next' (rd rr (htred next)) end).
    destruct (mcall rop e) as [rk rv rr|rr].
    + apply (ht_cons_ok h0 G HG w _ _ _ _ _ _ _ He (okl_pl _ _ _ Ho) Hn).
    + apply wref_ret. apply ht_with_rel, Hn.
  - intros t w1 He1 Ht. apply IH; [eapply ext_trans; eassumption|eapply okl_ext; eassumption|exact Ht].
Qed.

Lemma htm_lnode_ok this right depth w : ext h0 w -> okl G w this ->
  wref (trel G) w (htm_lnode rd both lop rop this right depth w) (tm_lnode rd both lop rop (strip_l this) (strip_l right) depth).
Proof.
  intros He Ho. unfold htm_lnode, tm_lnode. rewrite !strip_entry_l, hrights_loop_eq. cbn [fst]. destruct (_ =? _).
  - apply wref_same. intros rights. eapply wref_let; [apply (htm_l_impl_ok this rights w He Ho)|].
    intros [next rights1] w1 He1 Hp. destruct (tm_l_impl _ _ _ _ _ _) as [next' rights2]. destruct Hp as (Hn & Hr).
    cbn [fst snd] in Hn, Hr. subst rights2. apply htm_rest_ok; [eapply ext_trans; eassumption|eapply okl_ext; eassumption|exact Hn].
  - apply (htm_apart_ok (DNL this) (DNL right)); assumption.
Qed.

Lemma htm_ls_impl_ok right this : forall w, ext h0 w -> okl G w this ->
  wref (trel G) w (htm_ls_impl rd both lop rop this right w) (Ret (tm_ls_impl rd both lop rop (strip_l this) (strip_s right))).
Proof.
  assert (Hhit : forall this w, ext h0 w -> okl G w this ->
    wref (trel G) w
      (let* (next, w) := hn_transform rd lop (dl_next this) w in
       hl_transform_result rd this (tcall both (dl_entry this, ds_entry right)) next w)
      (Ret (l_transform_result rd (strip_l this) (tcall both ((l_key (strip_l this), l_value (strip_l this)), (s_key (strip_s right), s_value (strip_s right))))
        (n_transform rd lop (l_next (strip_l this)))))).
  { intros l w He Ho. rewrite <- strip_next. eapply wref_let; [apply (hn_transform_ok rd h0 G HG lop _ w He (okl_next _ _ _ Ho))|].
    intros t w1 He1 Ht. rewrite strip_entry_l, strip_entry_s.
    apply hl_transform_result_ok with (1 := HG); [eapply ext_trans; eassumption|eapply okl_ext; eassumption|exact Ht]. }
  assert (Hmiss : forall this w next next', ext h0 w -> okl G w this -> trel G w next next' ->
    wref (trel G) w (hl_transform_result rd this (tcall lop (dl_entry this)) next w)
      (Ret (l_transform_result rd (strip_l this) (tcall lop (l_key (strip_l this), l_value (strip_l this))) next'))).
  { intros l w next next' He Ho Hn. rewrite strip_entry_l. apply hl_transform_result_ok with (1 := HG); assumption. }
  induction this as [a k v n IH z|a k v s z]; intros w He Ho.
  - cbn [htm_ls_impl tm_ls_impl strip_l l_key]. rewrite (strip_entry_s right) at 1. cbn [dl_entry fst].
    destruct (keqb _ _); [apply (Hhit (DLL a k v n z) w He Ho)|].
    eapply wref_let; [apply (IH w He (proj2 Ho))|]. intros t w1 He1 Ht.
    apply (Hmiss (DLL a k v n z)); [eapply ext_trans; eassumption|eapply okl_ext; eassumption|exact Ht].
  - cbn [htm_ls_impl tm_ls_impl strip_l l_key]. rewrite (strip_entry_s right) at 1. cbn [dl_entry fst].
    destruct (keqb _ _); [apply (Hhit (DLS a k v s z) w He Ho)|]. rewrite (strip_entry_s right).
    eapply wref_let; [apply (htm_s_impl_ok s _ w He (proj2 Ho))|]. intros t w1 He1 Ht.
    apply (Hmiss (DLS a k v s z)); [eapply ext_trans; eassumption|eapply okl_ext; eassumption|exact Ht].
Qed.

Lemma htm_lsnode_ok this right depth w : ext h0 w -> okl G w this ->
  wref (trel G) w (htm_lsnode rd both lop rop this right depth w) (tm_lsnode rd both lop rop (strip_l this) (strip_s right) depth).
Proof.
  intros He Ho. unfold htm_lsnode, tm_lsnode. rewrite strip_entry_l, strip_entry_s. cbn [fst].
  destruct (_ =? _); [apply htm_ls_impl_ok; assumption|apply (htm_apart_ok (DNL this) (DNS right)); assumption].
Qed.

Lemma htm_snode_ok this right depth w : ext h0 w -> oks G w this ->
  wref (trel G) w (htm_snode rd both lop rop this right depth w) (tm_snode rd both lop rop (strip_s this) (strip_s right) depth).
Proof.
  intros He Ho. unfold htm_snode, tm_snode. rewrite !strip_entry_s. cbn [fst].
  destruct (_ =? _); [apply htm_s_impl_ok; assumption|apply (htm_apart_ok (DNS this) (DNS right)); assumption].
Qed.

Lemma htm_add_ok keep w a a' i (ol : option (dnode K V)) (or : option (dnode L W)) t t' : arel G w a a' -> oo (okn G w) ol -> trel G w t t' ->
  refines (arel G w) (htm_add rd keep a i ol or t w) (tm_add rd keep a' i (option_map strip ol) (option_map strip or) t').
Proof.
  intros Ha Ho Ht. unfold htm_add, tm_add. destruct t as [r|n], t' as [r'|n']; try contradiction.
  - cbn in Ht. subst r'. destruct ol as [l|]; [|constructor]. cbn [option_map unwrap bind]. rewrite strip_size.
    eapply refines_bind; [apply (hpush_ok G rd w a a' i _ _ _ r Ha (okn_pl _ _ _ Ho))|].
    intros b b' Hb. constructor. destruct keep; [exact Hb|apply hset_ul_rel, Hb].
  - eapply refines_bind; [apply (hpush_new_ok G rd w a a' i n n' Ha Ht)|]. intros b b' Hb. constructor. apply hset_ul_rel, Hb.
Qed.

Lemma htm_done_ok w (a : hacc R) (a' : acc K V R) : ext h0 w -> arel G w a a' -> wref (trel G) w (htm_done a w) (tm_done a').
Proof.
  intros He Ha. unfold htm_done, tm_done. replace (a_ul a') with (ha_ul a) by apply Ha. destruct (ha_ul a).
  - apply wref_ret. apply Ha.
  - apply as_t_ok. apply (hfinish_ok h0 G HG w a a' He Ha).
Qed.

End TM.

(** * transmute_with_transformed *)
Section MT.
Context {E : Env} {K V L W R : Type} {KK : Key K} {KL : Key L} {NZ : Noise L W}.
Context (rdef : R) (rd : R -> R -> R).
Context (both : transform_op ((K * V) * (L * W)) W R) (lop : transmute_op (K * V) L W R)
  (rop : transform_op (L * W) W R).
Notation heap := (heap L W).
Context (h0 : heap) (G : addr -> Prop) (HG : forall x, (length h0 <= x)%nat -> G x).

Lemma hmt_apart_ok this right depth w : ext h0 w -> okx G w right ->
  wref (trel G) w (hmt_apart rd lop rop this right depth w) (mt_apart rd lop rop (strip_x this) (strip_x right) depth).
Proof.
  intros He Ho. unfold hmt_apart, mt_apart.
  eapply wref_let; [apply (hn_transmute_ok rd h0 G HG lop this w He)|]. intros l w1 He1 Hl. cbv beta iota.
  assert (He2 : ext h0 w1) by (eapply ext_trans; eassumption).
  eapply wref_let; [apply (hn_transform_ok rd h0 G HG rop right w1 He2 (okx_ext _ _ _ _ Ho He1))|]. intros r w2 He3 Hr. cbv beta iota zeta.
  assert (He4 : ext h0 w2) by (eapply ext_trans; eassumption).
  rewrite two_flags_strip. apply wref_same. intros [lf rf].
  apply (nrel_ext _ _ w2) in Hl; [|exact He3].
  rewrite <- (htred_rel _ _ _ _ Hr), <- (hnred_rel _ _ _ _ Hl). set (z := rd (hnred l) (htred r)).
  assert (Hp : pl G w2 (hnext_node (dn_next right)) (next_mnode (strip_x right))).
  { apply plx_pl. apply okx_pl. eapply okx_ext; [exact Ho|eapply ext_trans; eassumption]. }
  destruct (proj1 Hl) as [a t Ha|].
  - destruct (htout_rel _ _ _ _ _ _ Hp Hr) as [b u Hb|].
    + pose proof (as_t_ok G w2 _ _ (hlift_ok h0 G HG w2 a b t u lf rf z He4 Ha Hb)) as HX.
      unfold cnode_lift in HX |- *. destruct (c_lift _ _ _ _ _); exact HX.
    + apply wref_ret. apply hn_with_rel, Hl.
  - apply wref_ret. apply ht_with_rel, Hr.
Qed.

Lemma hmt_s_impl_ok (this : dleaf K V) right w : ext h0 w -> oks G w right ->
  wref (trel G) w (hmt_s_impl rd both lop rop this right w) (Ret (mt_s_impl rd both lop rop (strip_s this) (strip_s right))).
Proof.
  intros He Ho. unfold hmt_s_impl, mt_s_impl. rewrite !strip_entry_s. cbn [fst snd]. destruct (keqb _ _).
  - destruct (tcall both _) as [r|v r|r]; [apply wref_ret; reflexivity| |apply wref_ret, nrel_Z].
    apply (as_t_ok G w _ _ (new_s_ok h0 G HG w _ v r He)).
  - destruct (mcall lop _) as [lk lv lr|lr], (tcall rop _) as [rr|rv rr|rr].
    + apply (as_t_ok G w _ _ (new_l_ok h0 G HG w lk lv _ _ (rd lr rr) He (oks_pl _ _ _ Ho))).
    + destruct (hs_new_plx h0 G HG w (s_key (strip_s right)) rv He) as (Hs & Hx).
      eapply wref_after; [exact Hx|]. apply (as_t_ok G _ _ _ (new_l_ok h0 G HG _ lk lv _ _ (rd lr rr) (ext_trans _ _ _ He Hx) Hs)).
    + apply (as_t_ok G w _ _ (new_s_ok h0 G HG w _ lv (rd lr rr) He)).
    + apply wref_ret. reflexivity.
    + apply (as_t_ok G w _ _ (new_s_ok h0 G HG w _ rv (rd lr rr) He)).
    + apply wref_ret, nrel_Z.
Qed.

Lemma hmt_hit_ok this result next next' w : ext h0 w -> nrel G w next next' ->
  wref (nrel G) w (hmt_hit rd this result next w) (Ret (mt_hit rd (strip_s this) result next')).
Proof.
  intros He Hn. unfold hmt_hit, mt_hit. rewrite strip_entry_s, <- (hnred_rel _ _ _ _ Hn). destruct result as [lr|lv lr|lr].
  - apply (hn_cons_ok h0 G HG w _ _ _ _ _ He Hn).
  - apply (hn_cons_ok h0 G HG w _ _ _ _ _ He Hn).
  - apply wref_ret. apply hn_with_rel, Hn.
Qed.

Lemma hmt_miss_ok this result next next' w : ext h0 w -> oks G w this -> trel G w next next' ->
  wref (trel G) w (hmt_miss rd this result next w) (Ret (mt_miss rd (strip_s this) result next')).
Proof.
  intros He Ho Hn. unfold hmt_miss, mt_miss. rewrite <- (htred_rel _ _ _ _ Hn). destruct result as [lk lv lr|lr].
  - apply (ht_cons_ok h0 G HG w _ _ _ _ _ _ _ He (oks_pl _ _ _ Ho) Hn).
  - destruct next as [r|n], next' as [r'|n']; try contradiction.
    + cbn in Hn. subst r'. rewrite strip_entry_s. cbn [fst snd]. apply (as_t_ok G w _ _ (new_s_ok h0 G HG w _ _ _ He)).
    + cbn in Hn. rewrite <- (hnred_rel _ _ _ _ Hn). apply wref_ret. apply hn_with_rel, Hn.
Qed.

Lemma hmt_ls_impl_ok right (this : dlist K V) : forall w, ext h0 w -> oks G w right ->
  wref (trel G) w (hmt_ls_impl rd both lop rop this right w) (Ret (mt_ls_impl rd both lop rop (strip_l this) (strip_s right))).
Proof.
  assert (Hhit : forall (this : dlist K V) w, ext h0 w ->
    wref (trel G) w
      (let* (next, w) := hn_transmute rd lop (dl_next this) w in
       as_t (hmt_hit rd right (tcall both (dl_entry this, ds_entry right)) next w))
      (Ret (TN (mt_hit rd (strip_s right) (tcall both ((l_key (strip_l this), l_value (strip_l this)), (s_key (strip_s right), s_value (strip_s right))))
        (n_transmute rd lop (l_next (strip_l this))))))).
  { intros l w He. rewrite <- strip_next. eapply wref_let; [apply (hn_transmute_ok rd h0 G HG lop _ w He)|].
    intros t w1 He1 Ht. rewrite strip_entry_l, strip_entry_s.
    apply (as_t_ok G w1 _ _ (hmt_hit_ok right _ t _ w1 (ext_trans _ _ _ He He1) Ht)). }
  assert (Hmiss : forall (this : dlist K V) w next next', ext h0 w -> oks G w right -> trel G w next next' ->
    wref (trel G) w (hmt_miss rd right (mcall lop (dl_entry this)) next w)
      (Ret (mt_miss rd (strip_s right) (mcall lop (l_key (strip_l this), l_value (strip_l this))) next'))).
  { intros l w next next' He Ho Hn. rewrite strip_entry_l. apply hmt_miss_ok; assumption. }
  induction this as [a k v n IH z|a k v s z]; intros w He Ho.
  - cbn [hmt_ls_impl mt_ls_impl strip_l l_key]. rewrite (strip_entry_s right) at 1. cbn [dl_entry fst].
    destruct (keqb _ _); [apply (Hhit (DLL a k v n z) w He)|].
    eapply wref_let; [apply (IH w He Ho)|]. intros t w1 He1 Ht.
    apply (Hmiss (DLL a k v n z)); [eapply ext_trans; eassumption|eapply oks_ext; eassumption|exact Ht].
  - cbn [hmt_ls_impl mt_ls_impl strip_l l_key]. rewrite (strip_entry_s right) at 1. cbn [dl_entry fst].
    destruct (keqb _ _); [apply (Hhit (DLS a k v s z) w He)|].
    eapply wref_let; [apply (hmt_s_impl_ok s _ w He Ho)|]. intros t w1 He1 Ht.
    apply (Hmiss (DLS a k v s z)); [eapply ext_trans; eassumption|eapply oks_ext; eassumption|exact Ht].
Qed.

Lemma hmt_lsnode_ok this right depth w : ext h0 w -> oks G w right ->
  wref (trel G) w (hmt_lsnode rd both lop rop this right depth w) (mt_lsnode rd both lop rop (strip_l this) (strip_s right) depth).
Proof.
  intros He Ho. unfold hmt_lsnode, mt_lsnode. rewrite strip_entry_l, strip_entry_s. cbn [fst].
  destruct (_ =? _); [apply hmt_ls_impl_ok; assumption|apply (hmt_apart_ok (DNL this) (DNS right)); assumption].
Qed.

Lemma hmt_snode_ok this right depth w : ext h0 w -> oks G w right ->
  wref (trel G) w (hmt_snode rd both lop rop this right depth w) (mt_snode rd both lop rop (strip_s this) (strip_s right) depth).
Proof.
  intros He Ho. unfold hmt_snode, mt_snode. rewrite !strip_entry_s. cbn [fst].
  destruct (_ =? _); [apply hmt_s_impl_ok; assumption|apply (hmt_apart_ok (DNS this) (DNS right)); assumption].
Qed.

Lemma hmt_add_ok keep w a a' i (ol : option (dnode K V)) (or : option (dnode L W)) t t' : arel G w a a' -> oo (okn G w) or -> trel G w t t' ->
  refines (arel G w) (hmt_add rd keep a i ol or t w) (mt_add rd keep a' i (option_map strip ol) (option_map strip or) t').
Proof.
  intros Ha Ho Ht. unfold hmt_add, mt_add. destruct t as [r|n], t' as [r'|n']; try contradiction.
  - cbn in Ht. subst r'. destruct or as [l|]; [|constructor]. cbn [option_map unwrap bind]. rewrite strip_size.
    eapply refines_bind; [apply (hpush_ok G rd w a a' i _ _ _ r Ha (okn_pl _ _ _ Ho))|].
    intros b b' Hb. constructor. destruct keep; [exact Hb|apply hset_ur_rel, Hb].
  - eapply refines_bind; [apply (hpush_new_ok G rd w a a' i n n' Ha Ht)|]. intros b b' Hb. constructor. apply hset_ur_rel, Hb.
Qed.

Lemma hmt_done_ok w (a : hacc R) (a' : acc L W R) : ext h0 w -> arel G w a a' -> wref (trel G) w (hmt_done a w) (mt_done a').
Proof.
  intros He Ha. unfold hmt_done, mt_done. replace (a_ur a') with (ha_ur a) by apply Ha. destruct (ha_ur a).
  - apply wref_ret. apply Ha.
  - apply as_t_ok. apply (hfinish_ok h0 G HG w a a' He Ha).
Qed.

End MT.

(** * transmute_with_transmuted *)
Section MM.
Context {E : Env} {K V L W S X R : Type} {KK : Key K} {KL : Key L} {NZ : Noise S X}.
Context (rdef : R) (rd : R -> R -> R).
Context (both : transmute_op ((K * V) * (L * W)) S X R) (lop : transmute_op (K * V) S X R)
  (rop : transmute_op (L * W) S X R).
Notation heap := (heap S X).
Context (h0 : heap) (G : addr -> Prop) (HG : forall x, (length h0 <= x)%nat -> G x).

Lemma hmm_apart_ok this right depth w : ext h0 w ->
  wref (nrel G) w (hmm_apart rd lop rop this right depth w) (mm_apart rd lop rop (strip_x this) (strip_x right) depth).
Proof.
  intros He. unfold hmm_apart, mm_apart.
  eapply wref_let; [apply (hn_transmute_ok rd h0 G HG lop this w He)|]. intros l w1 He1 Hl. cbv beta iota.
  assert (He2 : ext h0 w1) by (eapply ext_trans; eassumption).
  eapply wref_let; [apply (hn_transmute_ok rd h0 G HG rop right w1 He2)|]. intros r w2 He3 Hr. cbv beta iota zeta.
  assert (He4 : ext h0 w2) by (eapply ext_trans; eassumption).
  rewrite two_flags_strip. apply wref_same. intros [lf rf].
  apply (nrel_ext _ _ w2) in Hl; [|exact He3].
  rewrite <- (hnred_rel _ _ _ _ Hr), <- (hnred_rel _ _ _ _ Hl). set (z := rd (hnred l) (hnred r)).
  destruct (proj1 Hl) as [a t Ha|].
  - destruct (proj1 Hr) as [b u Hb|].
    + apply (hlift_ok h0 G HG w2 a b t u lf rf z He4 Ha Hb).
    + apply wref_ret. apply hn_with_rel, Hl.
  - apply wref_ret. apply hn_with_rel, Hr.
Qed.

Lemma hmm_values_ok this right w : ext h0 w ->
  wref (nrel G) w (hmm_values rd both lop rop this right w) (Ret (mm_values rd both lop rop this right)).
Proof.
  intros He. unfold hmm_values, mm_values. destruct (keqb _ _); [apply (hk_nres_ok h0 G HG _ w He)|].
  destruct (mcall lop _) as [lk lv lr|lr], (mcall rop _) as [rk rv rr|rr].
  - destruct (hs_new_plx h0 G HG w rk rv He) as (Hs & Hx).
    eapply wref_after; [exact Hx|]. apply (new_l_ok h0 G HG _ lk lv _ _ (rd lr rr) (ext_trans _ _ _ He Hx) Hs).
  - apply (new_s_ok h0 G HG w _ lv (rd lr rr) He).
  - apply (new_s_ok h0 G HG w _ rv (rd lr rr) He).
  - apply wref_ret, nrel_Z.
Qed.

Lemma hmm_l_impl_ok this : forall rights w, ext h0 w ->
  wref (with_rights (nrel G)) w (hmm_l_impl rd both lop rop this rights w) (Ret (mm_l_impl rd both lop rop (strip_l this) rights)).
Proof.
  assert (Hend : forall (this : dlist K V) w1 (p : hnres R * list (L * W)) q, ext h0 w1 -> with_rights (nrel G) w1 p q ->
    wref (with_rights (nrel G)) w1
     (let (next, rights) := p in
      let (result, rights) := match take_key (fst (dl_entry this)) rights with
        | Some (e, rights) => (mcall both (dl_entry this, e), rights)
        | None => (mcall lop (dl_entry this), rights) end in
      let* (t, w) := hl_transmute_result rd result next w1 in Ret ((t, rights), w))
     (Ret (let (next, rights) := q in
      let (result, rights) := match take_key (l_key (strip_l this)) rights with
        | Some (e, rights) => (mcall both ((l_key (strip_l this), l_value (strip_l this)), e), rights)
        | None => (mcall lop (l_key (strip_l this), l_value (strip_l this)), rights) end in
      (l_transmute_result rd result next, rights)))).
  { intros l w1 [next rights] [next' rights'] He (Hn & Hr). cbn [fst snd] in Hn, Hr. subst rights'.
    rewrite strip_entry_l. cbn [fst].
    destruct (match take_key (l_key (strip_l l)) rights with Some _ => _ | None => _ end) as [result rights'].
    eapply wref_let; [apply (hl_transmute_result_ok rd h0 G HG result next next' w1 He Hn)|].
    intros t w2 He2 Ht. apply wref_ret. split; [exact Ht|reflexivity]. }
  induction this as [a k v n IH z|a k v s z]; intros rights w He; cbn [hmm_l_impl mm_l_impl strip_l].
  - eapply wref_let; [apply (IH rights w He)|]. intros p w1 He1 Hp.
    apply (Hend (DLL a k v n z) w1 p); [eapply ext_trans; eassumption|exact Hp].
  - rewrite strip_entry_s. cbn [fst].
    eapply (wref_let (with_rights (nrel G))).
    + instantiate (1 := match take_key (s_key (strip_s s)) rights with
        | Some (e, rights) => (mm_values rd both lop rop (s_key (strip_s s), s_value (strip_s s)) e, rights)
        | None => (s_transmute lop (strip_s s), rights) end).
      destruct (take_key _ _) as [[e rights']|].
      * eapply wref_let; [apply (hmm_values_ok _ e w He)|]. intros t w1 He1 Ht. apply wref_ret. split; [exact Ht|reflexivity].
      * eapply wref_let; [apply (hs_transmute_ok h0 G HG lop s w He)|]. intros t w1 He1 Ht. apply wref_ret. split; [exact Ht|reflexivity].
    + intros p w1 He1 Hp.
      apply (Hend (DLS a k v s z) w1 p); [eapply ext_trans; eassumption|exact Hp].
Qed.

Lemma hmm_rest_ok rights : forall next next' w, ext h0 w -> nrel G w next next' ->
  wref (nrel G) w (hmm_rest rd rop rights next w) (Ret (mm_rest rd rop rights next')).
Proof.
  induction rights as [|e rights IH]; intros next next' w He Hn; cbn [hmm_rest mm_rest]; [apply wref_ret, Hn|].
  rewrite <- (hnred_rel _ _ _ _ Hn).
  eapply (wref_let (nrel G)).
  - instantiate (1 := match mcall rop e with
         | KTransmuted rk rv rr => n_cons rk rv next' (rd rr (hnred next))
         | KDropped rr => n_with next' (rd rr (hnred next)) end).
    destruct (mcall rop e) as [rk rv rr|rr].
    + apply (hn_cons_ok h0 G HG w _ _ _ _ _ He Hn).
    + apply wref_ret. apply hn_with_rel, Hn.
  - intros t w1 He1 Ht. apply IH; [eapply ext_trans; eassumption|exact Ht].
Qed.

Lemma hmm_lnode_ok this right depth w : ext h0 w ->
  wref (nrel G) w (hmm_lnode rd both lop rop this right depth w) (mm_lnode rd both lop rop (strip_l this) (strip_l right) depth).
Proof.
  intros He. unfold hmm_lnode, mm_lnode. rewrite !strip_entry_l, hrights_loop_eq. cbn [fst]. destruct (_ =? _).
  - apply wref_same. intros rights. eapply wref_let; [apply (hmm_l_impl_ok this rights w He)|].
    intros [next rights1] w1 He1 Hp. destruct (mm_l_impl _ _ _ _ _ _) as [next' rights2]. destruct Hp as (Hn & Hr).
    cbn [fst snd] in Hn, Hr. subst rights2. apply hmm_rest_ok; [eapply ext_trans; eassumption|exact Hn].
  - apply (hmm_apart_ok (DNL this) (DNL right)); assumption.
Qed.

Lemma hmm_ls_impl_ok right this : forall w, ext h0 w ->
  wref (nrel G) w (hmm_ls_impl rd both lop rop this right w) (Ret (mm_ls_impl rd both lop rop (strip_l this) (strip_s right))).
Proof.
  assert (Hhit : forall (this : dlist K V) w, ext h0 w ->
    wref (nrel G) w
      (let* (next, w) := hn_transmute rd lop (dl_next this) w in
       hl_transmute_result rd (mcall both (dl_entry this, ds_entry right)) next w)
      (Ret (l_transmute_result rd (mcall both ((l_key (strip_l this), l_value (strip_l this)), (s_key (strip_s right), s_value (strip_s right))))
        (n_transmute rd lop (l_next (strip_l this)))))).
  { intros l w He. rewrite <- strip_next. eapply wref_let; [apply (hn_transmute_ok rd h0 G HG lop _ w He)|].
    intros t w1 He1 Ht. rewrite strip_entry_l, strip_entry_s.
    apply hl_transmute_result_ok with (1 := HG); [eapply ext_trans; eassumption|exact Ht]. }
  assert (Hmiss : forall (this : dlist K V) w next next', ext h0 w -> nrel G w next next' ->
    wref (nrel G) w (hl_transmute_result rd (mcall lop (dl_entry this)) next w)
      (Ret (l_transmute_result rd (mcall lop (l_key (strip_l this), l_value (strip_l this))) next'))).
  { intros l w next next' He Hn. rewrite strip_entry_l. apply hl_transmute_result_ok with (1 := HG); assumption. }
  induction this as [a k v n IH z|a k v s z]; intros w He.
  - cbn [hmm_ls_impl mm_ls_impl strip_l l_key]. rewrite (strip_entry_s right) at 1. cbn [dl_entry fst].
    destruct (keqb _ _); [apply (Hhit (DLL a k v n z) w He)|].
    eapply wref_let; [apply (IH w He)|]. intros t w1 He1 Ht.
    apply (Hmiss (DLL a k v n z)); [eapply ext_trans; eassumption|exact Ht].
  - cbn [hmm_ls_impl mm_ls_impl strip_l l_key]. rewrite (strip_entry_s right) at 1. cbn [dl_entry fst].
    destruct (keqb _ _); [apply (Hhit (DLS a k v s z) w He)|]. rewrite (strip_entry_s right), (strip_entry_s s).
    eapply wref_let; [apply (hmm_values_ok _ _ w He)|]. intros t w1 He1 Ht.
    apply (Hmiss (DLS a k v s z)); [eapply ext_trans; eassumption|exact Ht].
Qed.

Lemma hmm_lsnode_ok this right depth w : ext h0 w ->
  wref (nrel G) w (hmm_lsnode rd both lop rop this right depth w) (mm_lsnode rd both lop rop (strip_l this) (strip_s right) depth).
Proof.
  intros He. unfold hmm_lsnode, mm_lsnode. rewrite strip_entry_l, strip_entry_s. cbn [fst].
  destruct (_ =? _); [apply hmm_ls_impl_ok; assumption|apply (hmm_apart_ok (DNL this) (DNS right)); assumption].
Qed.

Lemma hmm_snode_ok this right depth w : ext h0 w ->
  wref (nrel G) w (hmm_snode rd both lop rop this right depth w) (mm_snode rd both lop rop (strip_s this) (strip_s right) depth).
Proof.
  intros He. unfold hmm_snode, mm_snode. rewrite !strip_entry_s. cbn [fst].
  destruct (_ =? _); [apply hmm_values_ok; assumption|apply (hmm_apart_ok (DNS this) (DNS right)); assumption].
Qed.

End MM.
