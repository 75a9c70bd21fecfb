(** Two leaves or lists of the same map type, on the heap and on trees; the
    families of the joint operations. *)
From Coq Require Import NArith Arith List Bool Lia ZifyBool ZifyN ZifyNat.
From Verif Require Import Base Words Flag Bia BiaP Node Api Trans Transform Joint JointT Heap SpecH HeapP HeapOpP HeapBulk HeapBulkP HeapJointP HeapLeafP.
Import ListNotations.
Open Scope N_scope.

Section TT.
Context {E : Env} {K V R : Type} {KK : Key K} {NZ : Noise K V}.
Context (rdef : R) (rd : R -> R -> R).
Context (both : joint_op (K * V) V R) (lop : transform_op (K * V) V R) (rop : transform_op (K * V) V R).
Notation heap := (heap K V).
Context (h0 : heap) (G : addr -> Prop) (HG : forall x, (length h0 <= x)%nat -> G x).

Lemma htt_apart_ok this right depth w : ext h0 w -> okx G w this -> okx G w right ->
  wref (jrel G) w (htt_apart rd lop rop this right depth w) (tt_apart rd lop rop (strip_x this) (strip_x right) depth).
Proof.
  intros He Ho Hor. unfold htt_apart, tt_apart.
  eapply wref_let; [apply (hn_transform_ok rd h0 G HG lop this w He Ho)|]. intros l w1 He1 Hl. cbv beta iota.
  assert (He2 : ext h0 w1) by (eapply ext_trans; eassumption).
  eapply wref_let; [apply (hn_transform_ok rd h0 G HG rop right w1 He2 (okx_ext _ _ _ _ Hor He1))|]. intros r w2 He3 Hr. cbv beta iota zeta.
  assert (He4 : ext h0 w2) by (eapply ext_trans; eassumption).
  assert (He5 : ext w w2) by (eapply ext_trans; eassumption).
  rewrite two_flags_strip. apply wref_same. intros [lf rf].
  apply (trel_ext _ _ w2) in Hl; [|exact He3].
  rewrite <- (htred_rel _ _ _ _ Hl), <- (htred_rel _ _ _ _ Hr). set (z := rd (htred l) (htred r)).
  assert (Hp : pl G w2 (hnext_node (dn_next this)) (next_mnode (strip_x this))).
  { apply plx_pl. apply okx_pl. eapply okx_ext; [exact Ho|exact He5]. }
  assert (Hq : pl G w2 (hnext_node (dn_next right)) (next_mnode (strip_x right))).
  { apply plx_pl. apply okx_pl. eapply okx_ext; [exact Hor|exact He5]. }
  destruct (htout_rel _ _ _ _ _ _ Hp Hl) as [a t Ha|].
  - destruct (htout_rel _ _ _ _ _ _ Hq Hr) as [b u Hb|].
    + pose proof (as_j_ok G w2 _ _ (hlift_ok h0 G HG w2 a b t u lf rf z He4 Ha Hb)) as HX.
      unfold cnode_lift in HX |- *. destruct (c_lift _ _ _ _ _); exact HX.
    + apply wref_ret. apply ht_left_rel, ht_with_rel, Hl.
  - apply wref_ret. apply ht_right_rel, ht_with_rel, Hr.
Qed.

Lemma htt_s_impl_gen (this right : dleaf K V) w : ext h0 w -> oks G w this -> oks G w right ->
  wref (jrel G) w (htt_s_impl rd both lop rop this right w) (Ret (tt_s_impl rd both lop rop (strip_s this) (strip_s right))).
Proof.
  intros He Ho Hor. unfold htt_s_impl, tt_s_impl. rewrite !strip_entry_s. cbn [fst snd]. destruct (keqb _ _).
  - destruct (jcall both _ _) as [r|r|r|v r|r]; try (apply wref_ret; reflexivity); [|apply wref_ret, nrel_Z].
    apply (as_j_ok G w _ _ (new_s_ok h0 G HG w _ v r He)).
  - destruct (tcall lop _) as [lr|lv lr|lr], (tcall rop _) as [rr|rv rr|rr].
    + apply (as_j_ok G w _ _ (new_l_ok h0 G HG w _ _ _ _ (rd lr rr) He (oks_pl _ _ _ Ho))).
    + apply (as_j_ok G w _ _ (new_l_ok h0 G HG w _ rv _ _ (rd lr rr) He (oks_pl _ _ _ Ho))).
    + apply wref_ret. reflexivity.
    + apply (as_j_ok G w _ _ (new_l_ok h0 G HG w _ lv _ _ (rd lr rr) He (oks_pl _ _ _ Hor))).
    + destruct (hs_new_plx h0 G HG w (s_key (strip_s this)) lv He) as (Hs & Hx).
      eapply wref_after; [exact Hx|]. apply (as_j_ok G _ _ _ (new_l_ok h0 G HG _ _ rv _ _ (rd lr rr) (ext_trans _ _ _ He Hx) Hs)).
    + apply (as_j_ok G w _ _ (new_s_ok h0 G HG w _ lv (rd lr rr) He)).
    + apply wref_ret. reflexivity.
    + apply (as_j_ok G w _ _ (new_s_ok h0 G HG w _ rv (rd lr rr) He)).
    + apply wref_ret, nrel_Z.
Qed.

Lemma new_ls_ok k v e (r : R) w : ext h0 w -> wref (nrel G) w (new_ls k v e r w) (Ret (NRL (l_new k v (NS (SN (fst e) (snd e)))) r)).
Proof.
  intros He. unfold new_ls. destruct (hs_new_plx h0 G HG w (fst e) (snd e) He) as (Hs & Hx).
  eapply wref_after; [exact Hx|]. apply (new_l_ok h0 G HG _ _ _ _ _ r (ext_trans _ _ _ He Hx) Hs).
Qed.

Lemma tail_pl (l : dlist K V) w : okl G w l -> plx G w (dn_next (dl_next l)) (l_next (strip_l l)).
Proof. intros H. rewrite <- strip_next. apply okx_pl, okl_next, H. Qed.

Lemma nrel_case w (n : hnres R) (n' : nres K V R) : nrel G w n n' -> (exists r, n = HNZ r /\ n' = NRZ r) \/
  ((forall r, n <> HNZ r) /\ (forall r, n' <> NRZ r)).
Proof. intros H. destruct (nrel_shape _ _ _ _ H); try (right; split; intros r0; discriminate); left; eexists; split; reflexivity. Qed.

Lemma hjj_ok this result that next next' w : ext h0 w -> okl G w this -> jrel G w next next' ->
  wref (jrel G) w (hjj rd this result that next w) (jj rd (strip_l this) result that next').
Proof.
  intros He Ho Hn. unfold hjj, jj. rewrite strip_entry_l. cbv zeta.
  pose proof (fun k v (z : R) => as_j_ok G w _ _ (new_l_ok h0 G HG w k v _ _ z He (tail_pl _ _ Ho))) as Htail.
  pose proof (fun k v e (z : R) => as_j_ok G w _ _ (new_ls_ok k v e z w He)) as Hls.
  pose proof (fun k v (z : R) => as_j_ok G w _ _ (new_s_ok h0 G HG w k v z He)) as Hns.
  pose proof (fun z : R => nrel_next _ _ _ _ z (tail_pl _ _ Ho)) as Hnx.
  destruct result as [lr|lr|lr|lv lr|lr]; rewrite <- (hjred_rel _ _ _ _ Hn);
    destruct next as [r|r|r|n], next' as [r'|r'|r'|n']; try contradiction; try (apply wref_ret; reflexivity);
    try apply Htail; try (apply wref_ret; exact (Hnx _));
    try (apply (as_j_ok G w _ _ (hn_cons_ok h0 G HG w _ _ _ _ _ He Hn))); try (apply wref_ret; apply (hn_with_rel G w _ _ _ Hn));
    try (destruct that as [e|]; cbn [unwrap bind]; [first [apply Hls|apply Htail|apply Hns]|constructor]).
  destruct (nrel_case _ _ _ Hn) as [(r & -> & ->)|(H1 & H2)]; [apply wref_ret; reflexivity|].
  destruct that as [e|]; cbn [unwrap bind].
  - pose proof (as_j_ok G w _ _ (hn_cons_ok h0 G HG w (fst e) (snd e) n n' (rd lr (hjred (HJN n))) He Hn)) as HX.
    destruct n; [|exfalso; eapply H1; reflexivity]. destruct n'; try exact HX. exfalso; eapply H2; reflexivity.
  - destruct n; [|exfalso; eapply H1; reflexivity]. destruct n'; try constructor. exfalso; eapply H2; reflexivity.
Qed.

Lemma hjt_ok this result that next next' w : ext h0 w -> okl G w this -> trel G w next next' ->
  wref (jrel G) w (hjt rd this result that next w) (Ret (jt rd (strip_l this) result (strip_s that) next')).
Proof.
  intros He Ho Hn. unfold hjt, jt. rewrite strip_entry_l, strip_entry_s. cbn [fst snd]. cbv zeta.
  pose proof (fun k v (z : R) => as_j_ok G w _ _ (new_l_ok h0 G HG w k v _ _ z He (tail_pl _ _ Ho))) as Htail.
  pose proof (fun z : R => nrel_next _ _ _ _ z (tail_pl _ _ Ho)) as Hnx.
  destruct result as [lr|lr|lr|lv lr|lr]; rewrite <- (htred_rel _ _ _ _ Hn);
    destruct next as [r|n], next' as [r'|n']; try contradiction; try (apply wref_ret; reflexivity);
    try apply Htail; try (apply wref_ret; exact (Hnx _));
    try (apply (as_j_ok G w _ _ (hn_cons_ok h0 G HG w _ _ _ _ _ He Hn))); try (apply wref_ret; apply (hn_with_rel G w _ _ _ Hn)).
  pose proof (as_j_ok G w _ _ (hn_cons_ok h0 G HG w (s_key (strip_s that)) (s_value (strip_s that)) n n' (rd lr (htred (HTN n))) He Hn)) as HX.
  destruct (nrel_case _ _ _ Hn) as [(r & -> & ->)|(H1 & H2)]; [apply wref_ret; reflexivity|].
  destruct n; [|exfalso; eapply H1; reflexivity]. destruct n'; try exact HX. exfalso; eapply H2; reflexivity.
Qed.

Lemma htj_ok this result that next next' w : ext h0 w -> okl G w this -> oks G w that -> jrel G w next next' ->
  wref (jrel G) w (htj rd this result that next w) (Ret (tj rd (strip_l this) result (strip_s that) next')).
Proof.
  intros He Ho Hor Hn. unfold htj, tj. rewrite strip_entry_l, strip_entry_s. cbn [fst snd]. cbv zeta.
  pose proof (fun k v (z : R) => as_j_ok G w _ _ (new_l_ok h0 G HG w k v _ _ z He (tail_pl _ _ Ho))) as Htail.
  pose proof (fun k v (z : R) => as_j_ok G w _ _ (new_l_ok h0 G HG w k v _ _ z He (okl_pl _ _ _ Ho))) as Hthis.
  pose proof (fun k v (z : R) => as_j_ok G w _ _ (new_l_ok h0 G HG w k v _ _ z He (oks_pl _ _ _ Hor))) as Hthat.
  pose proof (fun z : R => nrel_next _ _ _ _ z (tail_pl _ _ Ho)) as Hnx.
  destruct result as [lr|lv lr|lr]; rewrite <- (hjred_rel _ _ _ _ Hn);
    destruct next as [r|r|r|n], next' as [r'|r'|r'|n']; try contradiction; try (apply wref_ret; reflexivity);
    try apply Htail; try apply Hthis; try apply Hthat; try (apply wref_ret; exact (Hnx _));
    try (apply (as_j_ok G w _ _ (hn_cons_ok h0 G HG w _ _ _ _ _ He Hn))); try (apply wref_ret; apply (hn_with_rel G w _ _ _ Hn)).
Qed.

Lemma htt_l_impl_ok this : forall rights w, ext h0 w -> okl G w this ->
  wref (with_rights (jrel G)) w (htt_l_impl rd both lop rop this rights w) (tt_l_impl rd both lop rop (strip_l this) rights).
Proof.
  assert (Hend : forall (this : dlist K V) w1 (p : hjres R * list (K * V)) q that, ext h0 w1 -> okl G w1 this -> with_rights (jrel G) w1 p q ->
    wref (with_rights (jrel G)) w1
     (let '((next, rights), that) := (p, that) : (hjres R * list (K * V)) * option (K * V) in
      let (result, rights) := match take_key (fst (dl_entry this)) rights with
        | Some (e, rights) => (jcall both (dl_entry this) e, rights)
        | None => (v_left (tcall lop (dl_entry this)), rights) end in
      let* (t, w) := hjj rd this result that next w1 in Ret ((t, rights), w))
     (let (next, rights) := q in
      let (result, rights) := match take_key (l_key (strip_l this)) rights with
        | Some (e, rights) => (jcall both (l_key (strip_l this), l_value (strip_l this)) e, rights)
        | None => (v_left (tcall lop (l_key (strip_l this), l_value (strip_l this))), rights) end in
      let* t := jj rd (strip_l this) result that next in Ret (t, rights))).
  { intros l w1 [next rights] [next' rights'] that He Ho (Hn & Hr). cbn [fst snd] in Hn, Hr. subst rights'.
    rewrite strip_entry_l. cbn [fst].
    destruct (match take_key (l_key (strip_l l)) rights with Some _ => _ | None => _ end) as [result rights'].
    eapply wref_bind; [apply (hjj_ok l result that next next' w1 He Ho Hn)|].
    intros t w2 t' He2 Ht. apply wref_ret. split; [exact Ht|reflexivity]. }
  induction this as [a k v n IH z|a k v s z]; intros rights w He Ho; cbn [htt_l_impl tt_l_impl strip_l].
  - eapply (wref_bind (fun w p q => with_rights (jrel G) w (fst p) (fst q) /\ snd p = snd q)).
    + eapply wref_bind; [apply (IH rights w He (proj2 Ho))|]. intros p w1 q He1 Hp. apply wref_ret. split; [exact Hp|reflexivity].
    + intros [p that] w1 [q that'] He1 (Hp & Ht). cbn [fst snd] in Hp, Ht. subst that'.
      apply (Hend (DLL a k v n z) w1 p q that); [eapply ext_trans; eassumption|eapply okl_ext; eassumption|exact Hp].
  - rewrite strip_entry_s. cbn [fst].
    eapply (wref_bind (fun w p q => with_rights (jrel G) w (fst p) (fst q) /\ snd p = snd q)).
    + destruct (take_key _ _) as [[e rights']|].
      * destruct (hs_new w (fst e) (snd e)) as [b w0] eqn:Hnew.
        assert (Hnp : plx G w0 (XS b) (NS (SN (fst e) (snd e))) /\ ext w w0).
        { pose proof (hs_new_plx h0 G HG w (fst e) (snd e) He) as HH. rewrite Hnew in HH. exact HH. }
        destruct Hnp as (Hb & Hx). eapply wref_after; [exact Hx|].
        eapply wref_let; [apply (htt_s_impl_gen s (DSN b (fst e) (snd e)) w0 (ext_trans _ _ _ He Hx))|].
        -- eapply oks_ext; [exact (proj2 Ho)|exact Hx].
        -- apply (plx_pl _ _ _ _ Hb).
        -- intros t w1 He1 Ht. apply wref_ret. split; [split; [exact Ht|reflexivity]|reflexivity].
      * eapply wref_let; [apply (hs_transform_ok h0 G HG lop s w He (proj2 Ho))|]. intros t w1 He1 Ht.
        apply wref_ret. split; [split; [apply ht_left_rel, Ht|reflexivity]|reflexivity].
    + intros [p that] w1 [q that'] He1 (Hp & Ht). cbn [fst snd] in Hp, Ht. subst that'.
      apply (Hend (DLS a k v s z) w1 p q that); [eapply ext_trans; eassumption|eapply okl_ext; eassumption|exact Hp].
Qed.

Lemma htt_rest_ok this rights : forall next next' w, ext h0 w -> okl G w this -> jrel G w next next' ->
  wref (jrel G) w (htt_rest rd rop this rights next w) (tt_rest rd rop (strip_l this) rights next').
Proof.
  induction rights as [|e rights IH]; intros next next' w He Ho Hn; cbn [htt_rest tt_rest]; [apply wref_ret, Hn|].
  eapply (wref_bind (jrel G)).
  - pose proof (fun k v (z : R) => as_j_ok G w _ _ (new_l_ok h0 G HG w k v _ _ z He (okl_pl _ _ _ Ho))) as Hthis.
    pose proof (hjred_rel _ _ _ _ Hn) as Hred.
    destruct (tcall rop e) as [rr|rv rr|rr]; destruct next as [r|r|r|n], next' as [r'|r'|r'|n']; try contradiction; try (constructor; fail);
      cbn in Hred; try subst r'; try rewrite <- Hred;
      try apply Hthis; try (apply wref_ret; reflexivity); try (apply (as_j_ok G w _ _ (hn_cons_ok h0 G HG w _ _ _ _ _ He Hn))).
    apply wref_ret. apply (hn_with_rel G w _ _ _ Hn).
  - intros t w1 t' He1 Ht. apply IH; [eapply ext_trans; eassumption|eapply okl_ext; eassumption|exact Ht].
Qed.

Lemma htt_lnode_ok this right depth w : ext h0 w -> okl G w this -> okl G w right ->
  wref (jrel G) w (htt_lnode rd both lop rop this right depth w) (tt_lnode rd both lop rop (strip_l this) (strip_l right) depth).
Proof.
  intros He Ho Hor. unfold htt_lnode, tt_lnode. rewrite !strip_entry_l, hrights_loop_eq. cbn [fst]. destruct (_ =? _).
  - apply wref_same. intros rights. eapply wref_bind; [apply (htt_l_impl_ok this rights w He Ho)|].
    intros [next rights1] w1 [next' rights2] He1 (Hn & Hr).
    cbn [fst snd] in Hn, Hr. subst rights2. apply htt_rest_ok; [eapply ext_trans; eassumption|eapply okl_ext; eassumption|exact Hn].
  - apply (htt_apart_ok (DNL this) (DNL right)); assumption.
Qed.

Lemma htt_ls_impl_ok right this : forall w, ext h0 w -> okl G w this -> oks G w right ->
  wref (jrel G) w (htt_ls_impl rd both lop rop this right w) (Ret (tt_ls_impl rd both lop rop (strip_l this) (strip_s right))).
Proof.
  assert (Hhit : forall this w, ext h0 w -> okl G w this ->
    wref (jrel G) w
      (let* (next, w) := hn_transform rd lop (dl_next this) w in
       hjt rd this (jcall both (dl_entry this) (ds_entry right)) right next w)
      (Ret (jt rd (strip_l this) (jcall both (l_key (strip_l this), l_value (strip_l this)) (s_key (strip_s right), s_value (strip_s right))) (strip_s right)
        (n_transform rd lop (l_next (strip_l this)))))).
  { intros l w He Ho. rewrite <- strip_next. eapply wref_let; [apply (hn_transform_ok rd h0 G HG lop _ w He (okl_next _ _ _ Ho))|].
    intros t w1 He1 Ht. rewrite strip_entry_l, strip_entry_s.
    apply hjt_ok; [eapply ext_trans; eassumption|eapply okl_ext; eassumption|exact Ht]. }
  assert (Hmiss : forall this w next next', ext h0 w -> okl G w this -> oks G w right -> jrel G w next next' ->
    wref (jrel G) w (htj rd this (tcall lop (dl_entry this)) right next w)
      (Ret (tj rd (strip_l this) (tcall lop (l_key (strip_l this), l_value (strip_l this))) (strip_s right) next'))).
  { intros l w next next' He Ho Hor Hn. rewrite strip_entry_l. apply htj_ok; assumption. }
  induction this as [a k v n IH z|a k v s z]; intros w He Ho Hor.
  - cbn [htt_ls_impl tt_ls_impl strip_l l_key]. rewrite (strip_entry_s right) at 1. cbn [dl_entry fst].
    destruct (keqb _ _); [apply (Hhit (DLL a k v n z) w He Ho)|].
    eapply wref_let; [apply (IH w He (proj2 Ho) Hor)|]. intros t w1 He1 Ht.
    apply (Hmiss (DLL a k v n z)); [eapply ext_trans; eassumption|eapply okl_ext; eassumption|eapply oks_ext; eassumption|exact Ht].
  - cbn [htt_ls_impl tt_ls_impl strip_l l_key]. rewrite (strip_entry_s right) at 1. cbn [dl_entry fst].
    destruct (keqb _ _); [apply (Hhit (DLS a k v s z) w He Ho)|].
    eapply wref_let; [apply (htt_s_impl_gen s _ w He (proj2 Ho) Hor)|]. intros t w1 He1 Ht.
    apply (Hmiss (DLS a k v s z)); [eapply ext_trans; eassumption|eapply okl_ext; eassumption|eapply oks_ext; eassumption|exact Ht].
Qed.

Lemma htt_lsnode_ok this right depth w : ext h0 w -> okl G w this -> oks G w right ->
  wref (jrel G) w (htt_lsnode rd both lop rop this right depth w) (tt_lsnode rd both lop rop (strip_l this) (strip_s right) depth).
Proof.
  intros He Ho Hor. unfold htt_lsnode, tt_lsnode. rewrite strip_entry_l, strip_entry_s. cbn [fst].
  destruct (_ =? _); [apply htt_ls_impl_ok; assumption|apply (htt_apart_ok (DNL this) (DNS right)); assumption].
Qed.

Lemma htt_snode_ok this right depth w : ext h0 w -> oks G w this -> oks G w right ->
  wref (jrel G) w (htt_snode rd both lop rop this right depth w) (tt_snode rd both lop rop (strip_s this) (strip_s right) depth).
Proof.
  intros He Ho Hor. unfold htt_snode, tt_snode. rewrite !strip_entry_s. cbn [fst].
  destruct (_ =? _); [apply htt_s_impl_gen; assumption|apply (htt_apart_ok (DNS this) (DNS right)); assumption].
Qed.

Lemma htt_add_ok w a a' i (ol or : option (dnode K V)) t t' : arel G w a a' -> oo (okn G w) ol -> oo (okn G w) or -> jrel G w t t' ->
  refines (arel G w) (htt_add rd a i ol or t w) (tt_add rd a' i (option_map strip ol) (option_map strip or) t').
Proof.
  intros Ha Ho Hor Ht. unfold htt_add, tt_add. destruct t as [r|r|r|n], t' as [r'|r'|r'|n']; try contradiction.
  - cbn in Ht. subst r'. destruct ol as [l|]; [|constructor]. cbn [option_map unwrap bind]. rewrite strip_size.
    apply (hpush_ok G rd w a a' i _ _ _ r Ha (okn_pl _ _ _ Ho)).
  - cbn in Ht. subst r'. destruct ol as [l|]; [|constructor]. cbn [option_map unwrap bind]. rewrite strip_size.
    eapply refines_bind; [apply (hpush_ok G rd w a a' i _ _ _ r Ha (okn_pl _ _ _ Ho))|].
    intros b b' Hb. constructor. apply hset_ur_rel, Hb.
  - cbn in Ht. subst r'. destruct or as [l|]; [|constructor]. cbn [option_map unwrap bind]. rewrite strip_size.
    eapply refines_bind; [apply (hpush_ok G rd w a a' i _ _ _ r Ha (okn_pl _ _ _ Hor))|].
    intros b b' Hb. constructor. apply hset_ul_rel, Hb.
  - eapply refines_bind; [apply (hpush_new_ok G rd w a a' i n n' Ha Ht)|]. intros b b' Hb. constructor. apply hset_ur_rel, hset_ul_rel, Hb.
Qed.

Lemma htt_done_ok w (a : hacc R) (a' : acc K V R) : ext h0 w -> arel G w a a' -> wref (jrel G) w (htt_done a w) (tt_done a').
Proof.
  intros He Ha. unfold htt_done, tt_done.
  replace (a_ul a') with (ha_ul a) by apply Ha. replace (a_ur a') with (ha_ur a) by apply Ha.
  replace (a_red a') with (ha_red a) by apply Ha.
  destruct (ha_ul a), (ha_ur a); try (apply wref_ret; reflexivity). apply as_j_ok. apply (hfinish_ok h0 G HG w a a' He Ha).
Qed.

Lemma htt_short_ok w : orel (jrel G w) (htt_short both lop rop) (tt_short both lop rop).
Proof. unfold htt_short, tt_short. destruct both, lop, rop; try constructor; try reflexivity. apply nrel_Z. Qed.

End TT.

(** * The families *)
Section Families.
Context {E : Env} {R : Type} (rdef : R) (rd : R -> R -> R) (st : strategy).

Lemma okn_ext' {K V} G (w w' : heap K V) n : okn G w n -> ext w w' -> okn G w' n.
Proof. intros H He. eapply okn_ext; eassumption. Qed.
Lemma okn_kids {K V} G (w : heap K V) a bits vs x c : okn G w (DC a (BIA bits vs x)) -> In c vs -> okn G w c.
Proof. intros H Hc. inversion H; subst. match goal with Hf : Forall _ _ |- _ => rewrite Forall_forall in Hf; apply Hf, Hc end. Qed.

Section TMF.
Context {K V L W : Type} {KK : Key K} {KL : Key L} {NZ : Noise K V}.
Context (both : transform_op ((K * V) * (L * W)) V R) (lop : transform_op (K * V) V R) (rop : transmute_op (L * W) K V R).
Context (h0 : heap K V) (G : addr -> Prop) (HG : forall x, (length h0 <= x)%nat -> G x).

Lemma htm_leaf_ok w l (r : dnext L W) d : ext h0 w -> okn G w (dn_node l) ->
  wref (trel G) w (htm_leaf rd both lop rop l r d w) (tm_leaf rd both lop rop (strip_x l) (strip_x r) d).
Proof.
  intros He Ho. apply okn_x in Ho. destruct l as [l|s], r as [r|r]; cbn [strip_x htm_leaf tm_leaf].
  - apply (htm_lnode_ok rd both lop rop h0 G HG); assumption.
  - apply (htm_lsnode_ok rd both lop rop h0 G HG); assumption.
  - apply (hmt_lsnode_ok rd (tflip both) rop lop h0 G HG); assumption.
  - apply (htm_snode_ok rd both lop rop h0 G HG); assumption.
Qed.

Lemma htm_lone_ok w n : ext h0 w -> okn G w n -> wref (trel G) w (htm_lone rdef rd st lop n w) (tm_lone rdef rd st lop (strip n)).
Proof. intros He Ho. apply (h_transform_ok rdef rd h0 G HG); assumption. Qed.
Lemma htm_rone_ok w (n : dnode L W) : ext h0 w -> wref (trel G) w (htm_rone rdef rd rop n w) (tm_rone rdef rd rop (strip n)).
Proof. intros He. apply as_t_ok. apply (h_transmute_ok rdef rd h0 G HG); assumption. Qed.

Lemma htm_tree_leaf_ok w (r : dnext L W) n d : ext h0 w -> okn G w n ->
  wref (trel G) w (htm_tree_leaf rdef rd st both lop rop r n d w) (tm_tree_leaf rdef rd st both lop rop (strip_x r) (strip n) d).
Proof.
  intros He Ho. unfold htm_tree_leaf, tm_tree_leaf.
  replace (match strip_x r with NL _ => false | NS _ => true end) with (match r with DNL _ => false | DNS _ => true end) by (destruct r; reflexivity).
  apply (h_leaf_ok rdef h0 G (okn G) (fun _ _ => True) (trel G)); auto.
  - intros w1 w2 n1 H1 H2. eapply okn_ext'; eassumption.
  - apply okn_kids.
  - intros. apply htm_add_ok; assumption.
  - apply htm_lone_ok.
  - intros w1 n1 He1 _. apply htm_rone_ok, He1.
  - intros w1 a a' He1 Ha. apply (htm_done_ok h0 G HG); assumption.
  - intros w1 l r1 d1 He1 Ho1 _. apply htm_leaf_ok; assumption.
Qed.
End TMF.

Section MTF.
Context {K V L W : Type} {KK : Key K} {KL : Key L} {NZ : Noise L W}.
Context (both : transform_op ((K * V) * (L * W)) W R) (lop : transmute_op (K * V) L W R) (rop : transform_op (L * W) W R).
Context (h0 : heap L W) (G : addr -> Prop) (HG : forall x, (length h0 <= x)%nat -> G x).

Lemma hmt_leaf_ok w (l : dnext K V) r d : ext h0 w -> okn G w (dn_node r) ->
  wref (trel G) w (hmt_leaf rd both lop rop l r d w) (mt_leaf rd both lop rop (strip_x l) (strip_x r) d).
Proof.
  intros He Ho. apply okn_x in Ho. destruct l as [l|s], r as [r|r]; cbn [strip_x hmt_leaf mt_leaf].
  - apply (htm_lnode_ok rd (tflip both) rop lop h0 G HG); assumption.
  - apply (hmt_lsnode_ok rd both lop rop h0 G HG); assumption.
  - apply (htm_lsnode_ok rd (tflip both) rop lop h0 G HG); assumption.
  - apply (hmt_snode_ok rd both lop rop h0 G HG); assumption.
Qed.

Lemma hmt_lone_ok w (n : dnode K V) : ext h0 w -> wref (trel G) w (hmt_lone rdef rd lop n w) (mt_lone rdef rd lop (strip n)).
Proof. intros He. apply as_t_ok. apply (h_transmute_ok rdef rd h0 G HG); assumption. Qed.
Lemma hmt_rone_ok w n : ext h0 w -> okn G w n -> wref (trel G) w (hmt_rone rdef rd st rop n w) (mt_rone rdef rd st rop (strip n)).
Proof. intros He Ho. apply (h_transform_ok rdef rd h0 G HG); assumption. Qed.

Lemma hmt_tree_leaf_ok w r (n : dnode K V) d : ext h0 w -> okn G w (dn_node r) ->
  wref (trel G) w (hmt_tree_leaf rdef rd st both lop rop r n d w) (mt_tree_leaf rdef rd st both lop rop (strip_x r) (strip n) d).
Proof.
  intros He Ho. unfold hmt_tree_leaf, mt_tree_leaf.
  replace (match strip_x r with NL _ => false | NS _ => true end) with (match r with DNL _ => false | DNS _ => true end) by (destruct r; reflexivity).
  apply (h_leaf_ok rdef h0 G (fun _ _ => True) (okn G) (trel G)); auto.
  - intros w1 w2 n1 H1 H2. eapply okn_ext'; eassumption.
  - intros. apply hmt_add_ok; assumption.
  - intros w1 n1 He1 _. apply hmt_lone_ok, He1.
  - apply hmt_rone_ok.
  - intros w1 a a' He1 Ha. apply (hmt_done_ok h0 G HG); assumption.
  - intros w1 l r1 d1 He1 _ Ho1. apply hmt_leaf_ok; assumption.
Qed.
End MTF.

Section MMF.
Context {K V L W S X : Type} {KK : Key K} {KL : Key L} {NZ : Noise S X}.
Context (both : transmute_op ((K * V) * (L * W)) S X R) (lop : transmute_op (K * V) S X R) (rop : transmute_op (L * W) S X R).
Context (h0 : heap S X) (G : addr -> Prop) (HG : forall x, (length h0 <= x)%nat -> G x).

Lemma hmm_leaf_ok w (l : dnext K V) (r : dnext L W) d : ext h0 w ->
  wref (nrel G) w (hmm_leaf rd both lop rop l r d w) (mm_leaf rd both lop rop (strip_x l) (strip_x r) d).
Proof.
  intros He. destruct l as [l|s], r as [r|r]; cbn [strip_x hmm_leaf mm_leaf].
  - apply (hmm_lnode_ok rd both lop rop h0 G HG); assumption.
  - apply (hmm_lsnode_ok rd both lop rop h0 G HG); assumption.
  - apply (hmm_lsnode_ok rd (mflip both) rop lop h0 G HG); assumption.
  - apply (hmm_snode_ok rd both lop rop h0 G HG); assumption.
Qed.

Lemma hmm_tree_leaf_ok w (r : dnext L W) (n : dnode K V) d : ext h0 w ->
  wref (nrel G) w (hmm_tree_leaf rdef rd both lop rop r n d w) (mm_tree_leaf rdef rd both lop rop (strip_x r) (strip n) d).
Proof.
  intros He. unfold hmm_tree_leaf, mm_tree_leaf.
  apply (h_leaf_ok rdef h0 G (fun _ _ => True) (fun _ _ => True) (nrel G)); auto.
  - intros. apply hpush_new_ok; assumption.
  - intros w1 n1 He1 _. apply (h_transmute_ok rdef rd h0 G HG); assumption.
  - intros w1 n1 He1 _. apply (h_transmute_ok rdef rd h0 G HG); assumption.
  - intros w1 a a' He1 Ha. apply (hfinish_ok h0 G HG); assumption.
  - intros w1 l r1 d1 He1 _ _. apply hmm_leaf_ok; assumption.
Qed.
End MMF.

Section TTF.
Context {K V : Type} {KK : Key K} {NZ : Noise K V}.
Context (h0 : heap K V) (G : addr -> Prop) (HG : forall x, (length h0 <= x)%nat -> G x).

Lemma htt_leaf_ok (both : joint_op (K * V) V R) lop rop w l r d : ext h0 w -> okn G w (dn_node l) -> okn G w (dn_node r) ->
  wref (jrel G) w (htt_leaf rd both lop rop l r d w) (tt_leaf rd both lop rop (strip_x l) (strip_x r) d).
Proof.
  intros He Ho Hor. apply okn_x in Ho. apply okn_x in Hor. destruct l as [l|s], r as [r|r]; cbn [strip_x htt_leaf tt_leaf].
  - apply (htt_lnode_ok rd both lop rop h0 G HG); assumption.
  - apply (htt_lsnode_ok rd both lop rop h0 G HG); assumption.
  - apply as_flip_ok. apply (htt_lsnode_ok rd (jflip both) rop lop h0 G HG); assumption.
  - apply (htt_snode_ok rd both lop rop h0 G HG); assumption.
Qed.

Lemma htt_lone_ok lop w n : ext h0 w -> okn G w n -> wref (jrel G) w (htt_lone rdef rd st lop n w) (tt_lone rdef rd st lop (strip n)).
Proof.
  intros He Ho. eapply wref_bind; [apply (h_transform_ok rdef rd h0 G HG); assumption|].
  intros t w1 t' He1 Ht. apply wref_ret, ht_left_rel, Ht.
Qed.
Lemma htt_rone_ok rop w n : ext h0 w -> okn G w n -> wref (jrel G) w (htt_rone rdef rd st rop n w) (tt_rone rdef rd st rop (strip n)).
Proof.
  intros He Ho. eapply wref_bind; [apply (h_transform_ok rdef rd h0 G HG); assumption|].
  intros t w1 t' He1 Ht. apply wref_ret, ht_right_rel, Ht.
Qed.

Lemma htt_tree_leaf_ok (both : joint_op (K * V) V R) lop rop w r n d : ext h0 w -> okn G w n -> okn G w (dn_node r) ->
  wref (jrel G) w (htt_tree_leaf rdef rd st both lop rop r n d w) (tt_tree_leaf rdef rd st both lop rop (strip_x r) (strip n) d).
Proof.
  intros He Ho Hor. unfold htt_tree_leaf, tt_tree_leaf.
  apply (h_leaf_ok rdef h0 G (okn G) (okn G) (jrel G)); auto.
  - intros w1 w2 n1 H1 H2. eapply okn_ext'; eassumption.
  - intros w1 w2 n1 H1 H2. eapply okn_ext'; eassumption.
  - apply okn_kids.
  - intros. apply htt_add_ok; assumption.
  - apply htt_lone_ok.
  - apply htt_rone_ok.
  - intros w1 a a' He1 Ha. apply (htt_done_ok h0 G HG); assumption.
  - intros w1 l r1 d1. apply htt_leaf_ok.
Qed.

Lemma htt_leaf_tree_ok (both : joint_op (K * V) V R) lop rop w l n d : ext h0 w -> okn G w (dn_node l) -> okn G w n ->
  wref (jrel G) w (htt_leaf_tree rdef rd st both lop rop l n d w) (tt_leaf_tree rdef rd st both lop rop (strip_x l) (strip n) d).
Proof. intros He Ho Hor. apply as_flip_ok. apply htt_tree_leaf_ok; assumption. Qed.

Lemma h_tt_ok (both : joint_op (K * V) V R) lop rop n r d w : ext h0 w -> okn G w n -> okn G w r ->
  wref (jrel G) w (h_tt rdef rd st both lop rop n r d w) (m_tt rdef rd st both lop rop (strip n) (strip r) d).
Proof.
  intros He Ho Hor. unfold h_tt, m_tt. apply (h_joint_ok rdef rd h0 G (okn G) (okn G) (jrel G)); auto.
  - intros w1 w2 n1 H1 H2. eapply okn_ext'; eassumption.
  - intros w1 w2 n1 H1 H2. eapply okn_ext'; eassumption.
  - apply okn_kids.
  - apply okn_kids.
  - intros. apply htt_add_ok; assumption.
  - apply htt_lone_ok.
  - apply htt_rone_ok.
  - intros w1 a a' He1 Ha. apply (htt_done_ok h0 G HG); assumption.
  - intros w1 l r1 d1. apply htt_leaf_ok.
  - intros w1 r1 n1 d1. apply htt_tree_leaf_ok.
  - intros w1 l n1 d1. apply htt_leaf_tree_ok.
  - intros w1. apply htt_short_ok.
Qed.
End TTF.

Section Joints.
Context {K V L W : Type} {KK : Key K} {KL : Key L}.

Lemma h_tm_ok {NZ : Noise K V} (both : transform_op ((K * V) * (L * W)) V R) lop rop (h0 : heap K V) (G : addr -> Prop) (HG : forall x, (length h0 <= x)%nat -> G x) n r d w :
  ext h0 w -> okn G w n ->
  wref (trel G) w (h_tm rdef rd st both lop rop n r d w) (m_tm rdef rd st both lop rop (strip n) (strip r) d).
Proof.
  intros He Ho. unfold h_tm, m_tm. apply (h_joint_ok rdef rd h0 G (okn G) (fun _ _ => True) (trel G)); auto.
  - intros w1 w2 n1 H1 H2. eapply okn_ext'; eassumption.
  - apply okn_kids.
  - intros. apply htm_add_ok; assumption.
  - intros w1 n1. apply (htm_lone_ok lop h0 G HG).
  - intros w1 n1 He1 _. apply (htm_rone_ok rop h0 G HG), He1.
  - intros w1 a a' He1 Ha. apply (htm_done_ok h0 G HG); assumption.
  - intros w1 l r1 d1 He1 Ho1 _. apply (htm_leaf_ok both lop rop h0 G HG); assumption.
  - intros w1 r1 n1 d1 He1 Ho1 _. apply (htm_tree_leaf_ok both lop rop h0 G HG); assumption.
  - intros w1 l n1 d1 He1 Ho1 _. apply (hmt_tree_leaf_ok (tflip both) rop lop h0 G HG); assumption.
  - intros w1. constructor.
Qed.

Lemma h_mt_ok {NZ : Noise L W} (both : transform_op ((K * V) * (L * W)) W R) lop rop (h0 : heap L W) (G : addr -> Prop) (HG : forall x, (length h0 <= x)%nat -> G x) n r d w :
  ext h0 w -> okn G w r ->
  wref (trel G) w (h_mt rdef rd st both lop rop n r d w) (m_mt rdef rd st both lop rop (strip n) (strip r) d).
Proof.
  intros He Ho. unfold h_mt, m_mt. apply (h_joint_ok rdef rd h0 G (fun _ _ => True) (okn G) (trel G)); auto.
  - intros w1 w2 n1 H1 H2. eapply okn_ext'; eassumption.
  - apply okn_kids.
  - intros. apply hmt_add_ok; assumption.
  - intros w1 n1 He1 _. apply (hmt_lone_ok lop h0 G HG), He1.
  - intros w1 n1. apply (hmt_rone_ok rop h0 G HG).
  - intros w1 a a' He1 Ha. apply (hmt_done_ok h0 G HG); assumption.
  - intros w1 l r1 d1 He1 _ Ho1. apply (hmt_leaf_ok both lop rop h0 G HG); assumption.
  - intros w1 r1 n1 d1 He1 _ Ho1. apply (hmt_tree_leaf_ok both lop rop h0 G HG); assumption.
  - intros w1 l n1 d1 He1 _ Ho1. apply (htm_tree_leaf_ok (tflip both) rop lop h0 G HG); assumption.
  - intros w1. constructor.
Qed.

Lemma h_mm_ok {S X} {KS : Key S} {NZ : Noise S X} (both : transmute_op ((K * V) * (L * W)) S X R) lop rop (h0 : heap S X) (G : addr -> Prop) (HG : forall x, (length h0 <= x)%nat -> G x) n r d w :
  ext h0 w ->
  wref (nrel G) w (h_mm rdef rd both lop rop n r d w) (m_mm rdef rd both lop rop (strip n) (strip r) d).
Proof.
  intros He. unfold h_mm, m_mm. apply (h_joint_ok rdef rd h0 G (fun _ _ => True) (fun _ _ => True) (nrel G)); auto.
  - intros. apply hpush_new_ok; assumption.
  - intros w1 n1 He1 _. apply (h_transmute_ok rdef rd h0 G HG); assumption.
  - intros w1 n1 He1 _. apply (h_transmute_ok rdef rd h0 G HG); assumption.
  - intros w1 a a' He1 Ha. apply (hfinish_ok h0 G HG); assumption.
  - intros w1 l r1 d1 He1 _ _. apply (hmm_leaf_ok both lop rop h0 G HG); assumption.
  - intros w1 r1 n1 d1 He1 _ _. apply (hmm_tree_leaf_ok both lop rop h0 G HG); assumption.
  - intros w1 l n1 d1 He1 _ _. apply (hmm_tree_leaf_ok (mflip both) rop lop h0 G HG); assumption.
  - intros w1. constructor.
Qed.
End Joints.

End Families.
