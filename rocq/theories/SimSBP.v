(** C66 for sets and the transfute operations: what the run with closures says. *)
From Coq Require Import NArith Arith List Bool Lia Permutation.
From Verif Require Import Base Words Flag Bia Node Api Reach Trans Transform Joint JointT Sets Eff EffP EffApi EffMapP EffSet Ask SpecAsk AskP AskHashP AskT SpecAskT AskJ SpecAskJ Misuse AskApiP AskSet SpecAskSet HandleP AskSetP AskSetJP AskFuteP SpecConst SpecConstSet SimP SimAP SimBP SimHP SimSP.
Import ListNotations.
Open Scope N_scope.

Lemma s_keeps_in {E : Env} {KL VL KR VR K TB TL TR R} (tr tr1 : list (event (A := jreply KL VL KR VR K unit TB TL TR R))) x out :
  (forall k k', jkey_clone tr1 k k' -> jkey_clone tr k k') -> s_keeps tr1 x out -> s_keeps tr x out.
Proof. intros H [Hx|(k & H1 & H2)]; [left; exact Hx|right; exists k; auto]. Qed.
Lemma sj_becomes_in {E : Env} {KL VL KR VR K TB TL TR R} (tr tr1 : list (event (A := jreply KL VL KR VR K unit TB TL TR R))) x (o : sres R) out :
  (forall k k', jkey_clone tr1 k k' -> jkey_clone tr k k') -> sj_becomes tr1 x o out -> sj_becomes tr x o out.
Proof. intros H. destruct o; cbn; [apply s_keeps_in, H|auto]. Qed.
Lemma f_becomes_in {E : Env} {KL VL KR VR K V TB TL TR R} (tr tr1 : list (event (A := jreply KL VL KR VR K V TB TL TR R))) x (o : skres V R) out :
  (forall k k', jkey_clone tr1 k k' -> jkey_clone tr k k') -> f_becomes tr1 x o out -> f_becomes tr x o out.
Proof. intros H. destruct o; cbn; [|auto]. intros (k' & H1 & H2). exists k'. auto. Qed.
Ltac becomes_tac Hs Hj := first [exact Hj
  | eapply jbecomes_in; [intros ? ? Hx; exact (same_key_clone _ _ _ _ _ _ _ _ _ _ Hs Hx)|intros ? ? Hx; exact (same_value_clone _ _ _ _ _ _ _ _ _ _ Hs Hx)|exact Hj]
  | eapply sj_becomes_in; [intros ? ? Hx; exact (same_key_clone _ _ _ _ _ _ _ _ _ _ Hs Hx)|exact Hj]
  | eapply f_becomes_in; [intros ? ? Hx; exact (same_key_clone _ _ _ _ _ _ _ _ _ _ Hs Hx)|exact Hj]].

Section SET_TM.
Context {E : Env} {K L R : Type}.
Theorem const_set_tm_run (m : tset K) (right : tset L) st (wb : tway R) (wl : tway R) (wr : mway R) tr (o : outcome (tset K * R * origin)) :
  misused m -> misused right -> exec (aset_tm st wb wl wr m right) tr o ->
  exists tr1 o1, exec (aset_tm st TwClosure TwClosure MwClosure m right) tr1 o1 /\
    same (jkeep (tw_closure wb) (tw_closure wl) (mw_closure wr)) jsoft (jfair (sw_fair wb) (sw_fair wl) (skw_fair wr)) tr tr1 /\ orel same_map o o1.
Proof. intros Hm Hr. exact (set_tm_sim st wb wl wr m right (misused_loose m Hm) (misused_loose right Hr) tr o). Qed.

Theorem const_set_tm (m : tset K) (right : tset L) st (wb : tway R) (wl : tway R) (wr : mway R) tr (o : outcome (tset K * R * origin)) :
  misused m -> misused right -> exec (aset_tm st wb wl wr m right) tr o ->
  match o with
  | Ret (m', r, og) => misused m' /\ (og = Self -> m' = m) /\
      exists is outs, Permutation (flat_map item_told is) (map inl (map_visit m) ++ map inr (map_visit right)) /\
        Permutation (jtold_all tr) (flat_map item_told (filter (item_called (tw_closure wb) (tw_closure wl) (mw_closure wr)) is)) /\
        (exists rest, Permutation (clones jsee tr ++ rest) (flat_map stm_cost is)) /\
        Forall2 (stm_goes wb wl wr tr) is outs /\ Permutation (map_visit m') (concat outs)
  | Panic => (jpanicked tr \/ hashes_differ tr) /\ exists rest, Permutation (jtold_all tr ++ rest) (map inl (map_visit m) ++ map inr (map_visit right))
  | Diverge => (3 <= longest right) /\ exists rest, Permutation (jtold_all tr ++ rest) (map inl (map_visit m) ++ map inr (map_visit right))
  end.
Proof.
  intros Hm Hr He. destruct (const_set_tm_run m right st wb wl wr tr o Hm Hr He) as (tr1 & o1 & He1 & Hs & Ho).
  pose proof (misused_set_tm m right st tr1 o1 Hm Hr He1) as H.
  assert (forall rest1, Permutation (jtold_all tr1 ++ rest1) (map inl (map_visit m) ++ map inr (map_visit right)) -> exists rest, Permutation (jtold_all tr ++ rest) (map inl (map_visit m) ++ map inr (map_visit right))) as Hrest.
  { intros rest1 H1. destruct (same_told_rest _ _ _ _ _ _ tr tr1 Hs) as [x Hx]. exists (x ++ rest1). rewrite app_assoc, Hx. exact H1. }
  destruct o as [[[m' r] og]| |], o1 as [[[m1 r1] og1]| |]; try contradiction.
  - destruct Ho as [Hm' Hog]. cbn in Hm', Hog. subst m1 og1. destruct H as (H0 & H1 & H2 & is & outs & (H3 & _ & _ & H4) & H5 & H6).
    assert (unbroken tr1) as HU. { destruct (unbroken_or tr1) as [HU|HU]; [exact HU|]. destruct (exec_stops _ _ _ He1 HU) as (? & ? & ? & ? & ?). discriminate. }
    split; [exact H0|]. split; [exact H2|]. exists is, outs. split; [|split; [|split; [|split; [|exact H6]]]].
    + rewrite <- H1, (told_ops tr1 HU). apply Permutation_flat_map. symmetry. exact H3.
    + rewrite (same_told _ _ _ _ _ _ tr tr1 Hs HU). apply Permutation_flat_map, filter_perm, H3.
    + rewrite <- (same_clones _ _ _ _ _ _ tr tr1 Hs). exact H4.
    + clear - H5 Hs. induction H5 as [|i out is outs Hi H5 IH]; constructor; [|exact IH]. destruct Hi as [Hi Hj]. split.
      * eapply same_from; [exact Hs|exact Hi|intros; first [apply tw_from_fair|apply mw_from_fair|apply sw_from_fair|apply skw_from_fair]; assumption..].
      * destruct i; becomes_tac Hs Hj.
  - destruct H as [H (rest & H1)]. split; [|eapply Hrest; eassumption]. destruct H as [H|H]; [left; eapply same_broke|right; eapply same_differ]; eassumption.
  - destruct H as [H (rest & H1)]. split; [exact H|eapply Hrest; eassumption].
Qed.

Theorem const_set_tm_ends (m : tset K) (right : tset L) st (wb : tway R) (wl : tway R) (wr : mway R) tr (o : outcome (tset K * R * origin)) :
  misused m -> misused right -> exec (aset_tm st wb wl wr m right) tr o -> longest right < 3 ->
  (unbroken tr /\ exists x, o = Ret x) \/ (unbroken tr /\ hashes_differ tr /\ o = Panic) \/ (exists tr' q, tr = tr' ++ [broke q] /\ unbroken tr' /\ o = Panic).
Proof.
  intros Hm Hr He HA. destruct (unbroken_or tr) as [HU|HU]; [|right; right; exact (exec_stops _ _ _ He HU)].
  apply const_set_tm in He; [|assumption..]. destruct o as [x| |]; [left; eauto| |exfalso; lia].
  right; left. split; [exact HU|]. split; [|reflexivity]. destruct He as [[[q Hq]|H] _]; [destruct (HU q Hq)|exact H].
Qed.

Theorem const_set_tm_steady {KK : Key K} {KL : Key L} (m : tset K) (right : tset L) st (wb : tway R) (wl : tway R) (wr : mway R) tr (o : outcome (tset K * R * origin)) :
  unequal m -> unequal right -> Forall stm_steady tr -> exec (aset_tm st wb wl wr m right) tr o ->
  match o with Ret (m', r, og) => unequal m' | Panic => jpanicked tr | Diverge => 3 <= longest right end.
Proof.
  intros Hm Hr Ht He. destruct (const_set_tm_run m right st wb wl wr tr o (unequal_misused _ Hm) (unequal_misused _ Hr) He) as (tr1 & o1 & He1 & Hs & Ho).
  assert (Forall stm_steady tr1) as Ht1.
  { rewrite Forall_forall in Ht |- *. intros e Hi. destruct (jkeep (tw_closure wb) (tw_closure wl) (mw_closure wr) (asked e)) eqn:Hk; [apply Ht; eapply same_in; eassumption|].
    pose proof (same_fair _ _ _ _ _ _ _ _ e Hs Hi) as Hf. clear - Hk Hf. destruct e as [q [a|]]; destruct q; cbn in Hk, Hf |- *; try discriminate; auto;
      repeat match goal with w : tway R |- _ => destruct w | w : mway R |- _ => destruct w end; cbn in *; try discriminate; try subst a; repeat split; cbn; auto. }
  pose proof (unequal_set_tm m right st tr1 o1 Hm Hr Ht1 He1) as H.
  destruct o as [[[m' r] og]| |], o1 as [[[m1 r1] og1]| |]; try contradiction; [|eapply same_broke; eassumption|exact H].
  destruct Ho as [Ho _]. cbn in Ho. subst m1. exact H.
Qed.
End SET_TM.

Section SET_MT.
Context {E : Env} {K L R : Type}.
Theorem const_set_mt_run (m : tset K) (right : tset L) st (wb : tway R) (wl : mway R) (wr : tway R) tr (o : outcome (tset L * R * origin)) :
  misused m -> misused right -> exec (aset_mt st wb wl wr m right) tr o ->
  exists tr1 o1, exec (aset_mt st TwClosure MwClosure TwClosure m right) tr1 o1 /\
    same (jkeep (tw_closure wb) (mw_closure wl) (tw_closure wr)) jsoft (jfair (sw_fair wb) (skw_fair wl) (sw_fair wr)) tr tr1 /\ orel same_map o o1.
Proof. intros Hm Hr. exact (set_mt_sim st wb wl wr m right (misused_loose m Hm) (misused_loose right Hr) tr o). Qed.

Theorem const_set_mt (m : tset K) (right : tset L) st (wb : tway R) (wl : mway R) (wr : tway R) tr (o : outcome (tset L * R * origin)) :
  misused m -> misused right -> exec (aset_mt st wb wl wr m right) tr o ->
  match o with
  | Ret (m', r, og) => misused m' /\ (og = Right -> m' = right) /\
      exists is outs, Permutation (flat_map item_told is) (map inl (map_visit m) ++ map inr (map_visit right)) /\
        Permutation (jtold_all tr) (flat_map item_told (filter (item_called (tw_closure wb) (mw_closure wl) (tw_closure wr)) is)) /\
        (exists rest, Permutation (clones jsee tr ++ rest) (flat_map smt_cost is)) /\
        Forall2 (smt_goes wb wl wr tr) is outs /\ Permutation (map_visit m') (concat outs)
  | Panic => (jpanicked tr \/ hashes_differ tr) /\ exists rest, Permutation (jtold_all tr ++ rest) (map inl (map_visit m) ++ map inr (map_visit right))
  | Diverge => (3 <= longest m) /\ exists rest, Permutation (jtold_all tr ++ rest) (map inl (map_visit m) ++ map inr (map_visit right))
  end.
Proof.
  intros Hm Hr He. destruct (const_set_mt_run m right st wb wl wr tr o Hm Hr He) as (tr1 & o1 & He1 & Hs & Ho).
  pose proof (misused_set_mt m right st tr1 o1 Hm Hr He1) as H.
  assert (forall rest1, Permutation (jtold_all tr1 ++ rest1) (map inl (map_visit m) ++ map inr (map_visit right)) -> exists rest, Permutation (jtold_all tr ++ rest) (map inl (map_visit m) ++ map inr (map_visit right))) as Hrest.
  { intros rest1 H1. destruct (same_told_rest _ _ _ _ _ _ tr tr1 Hs) as [x Hx]. exists (x ++ rest1). rewrite app_assoc, Hx. exact H1. }
  destruct o as [[[m' r] og]| |], o1 as [[[m1 r1] og1]| |]; try contradiction.
  - destruct Ho as [Hm' Hog]. cbn in Hm', Hog. subst m1 og1. destruct H as (H0 & H1 & H2 & is & outs & (H3 & _ & _ & H4) & H5 & H6).
    assert (unbroken tr1) as HU. { destruct (unbroken_or tr1) as [HU|HU]; [exact HU|]. destruct (exec_stops _ _ _ He1 HU) as (? & ? & ? & ? & ?). discriminate. }
    split; [exact H0|]. split; [exact H2|]. exists is, outs. split; [|split; [|split; [|split; [|exact H6]]]].
    + rewrite <- H1, (told_ops tr1 HU). apply Permutation_flat_map. symmetry. exact H3.
    + rewrite (same_told _ _ _ _ _ _ tr tr1 Hs HU). apply Permutation_flat_map, filter_perm, H3.
    + rewrite <- (same_clones _ _ _ _ _ _ tr tr1 Hs). exact H4.
    + clear - H5 Hs. induction H5 as [|i out is outs Hi H5 IH]; constructor; [|exact IH]. destruct Hi as [Hi Hj]. split.
      * eapply same_from; [exact Hs|exact Hi|intros; first [apply tw_from_fair|apply mw_from_fair|apply sw_from_fair|apply skw_from_fair]; assumption..].
      * destruct i; becomes_tac Hs Hj.
  - destruct H as [H (rest & H1)]. split; [|eapply Hrest; eassumption]. destruct H as [H|H]; [left; eapply same_broke|right; eapply same_differ]; eassumption.
  - destruct H as [H (rest & H1)]. split; [exact H|eapply Hrest; eassumption].
Qed.

Theorem const_set_mt_ends (m : tset K) (right : tset L) st (wb : tway R) (wl : mway R) (wr : tway R) tr (o : outcome (tset L * R * origin)) :
  misused m -> misused right -> exec (aset_mt st wb wl wr m right) tr o -> longest m < 3 ->
  (unbroken tr /\ exists x, o = Ret x) \/ (unbroken tr /\ hashes_differ tr /\ o = Panic) \/ (exists tr' q, tr = tr' ++ [broke q] /\ unbroken tr' /\ o = Panic).
Proof.
  intros Hm Hr He HA. destruct (unbroken_or tr) as [HU|HU]; [|right; right; exact (exec_stops _ _ _ He HU)].
  apply const_set_mt in He; [|assumption..]. destruct o as [x| |]; [left; eauto| |exfalso; lia].
  right; left. split; [exact HU|]. split; [|reflexivity]. destruct He as [[[q Hq]|H] _]; [destruct (HU q Hq)|exact H].
Qed.

Theorem const_set_mt_steady {KK : Key K} {KL : Key L} (m : tset K) (right : tset L) st (wb : tway R) (wl : mway R) (wr : tway R) tr (o : outcome (tset L * R * origin)) :
  unequal m -> unequal right -> Forall smt_steady tr -> exec (aset_mt st wb wl wr m right) tr o ->
  match o with Ret (m', r, og) => unequal m' | Panic => jpanicked tr | Diverge => 3 <= longest m end.
Proof.
  intros Hm Hr Ht He. destruct (const_set_mt_run m right st wb wl wr tr o (unequal_misused _ Hm) (unequal_misused _ Hr) He) as (tr1 & o1 & He1 & Hs & Ho).
  assert (Forall smt_steady tr1) as Ht1.
  { rewrite Forall_forall in Ht |- *. intros e Hi. destruct (jkeep (tw_closure wb) (mw_closure wl) (tw_closure wr) (asked e)) eqn:Hk; [apply Ht; eapply same_in; eassumption|].
    pose proof (same_fair _ _ _ _ _ _ _ _ e Hs Hi) as Hf. clear - Hk Hf. destruct e as [q [a|]]; destruct q; cbn in Hk, Hf |- *; try discriminate; auto;
      repeat match goal with w : tway R |- _ => destruct w | w : mway R |- _ => destruct w end; cbn in *; try discriminate; try subst a; repeat split; cbn; auto. }
  pose proof (unequal_set_mt m right st tr1 o1 Hm Hr Ht1 He1) as H.
  destruct o as [[[m' r] og]| |], o1 as [[[m1 r1] og1]| |]; try contradiction; [|eapply same_broke; eassumption|exact H].
  destruct Ho as [Ho _]. cbn in Ho. subst m1. exact H.
Qed.
End SET_MT.

Section SET_MM.
Context {E : Env} {K L S R : Type}.
Theorem const_set_mm_run (m : tset K) (right : tset L) (wb : mway R) (wl : mway R) (wr : mway R) tr (o : outcome (tset S * R)) :
  misused m -> misused right -> exec (aset_mm (S := S) wb wl wr m right) tr o ->
  exists tr1 o1, exec (aset_mm (S := S) MwClosure MwClosure MwClosure m right) tr1 o1 /\
    same (jkeep (mw_closure wb) (mw_closure wl) (mw_closure wr)) jsoft (jfair (skw_fair wb) (skw_fair wl) (skw_fair wr)) tr tr1 /\ orel same_made o o1.
Proof. intros Hm Hr. exact (set_mm_sim wb wl wr m right (misused_loose m Hm) (misused_loose right Hr) tr o). Qed.

Theorem const_set_mm (m : tset K) (right : tset L) (wb : mway R) (wl : mway R) (wr : mway R) tr (o : outcome (tset S * R)) :
  misused m -> misused right -> exec (aset_mm (S := S) wb wl wr m right) tr o ->
  match o with
  | Ret (m', r) => misused m' /\
      exists is outs, Permutation (flat_map item_told is) (map inl (map_visit m) ++ map inr (map_visit right)) /\
        Permutation (jtold_all tr) (flat_map item_told (filter (item_called (mw_closure wb) (mw_closure wl) (mw_closure wr)) is)) /\
        (exists rest, Permutation (clones jsee tr ++ rest) (flat_map smm_cost is)) /\
        Forall2 (smm_goes wb wl wr tr) is outs /\ Permutation (map_visit m') (concat outs)
  | Panic => (jpanicked tr \/ hashes_differ tr) /\ exists rest, Permutation (jtold_all tr ++ rest) (map inl (map_visit m) ++ map inr (map_visit right))
  | Diverge => (3 <= longest m \/ 3 <= longest right) /\ exists rest, Permutation (jtold_all tr ++ rest) (map inl (map_visit m) ++ map inr (map_visit right))
  end.
Proof.
  intros Hm Hr He. destruct (const_set_mm_run m right wb wl wr tr o Hm Hr He) as (tr1 & o1 & He1 & Hs & Ho).
  pose proof (misused_set_mm m right tr1 o1 Hm Hr He1) as H.
  assert (forall rest1, Permutation (jtold_all tr1 ++ rest1) (map inl (map_visit m) ++ map inr (map_visit right)) -> exists rest, Permutation (jtold_all tr ++ rest) (map inl (map_visit m) ++ map inr (map_visit right))) as Hrest.
  { intros rest1 H1. destruct (same_told_rest _ _ _ _ _ _ tr tr1 Hs) as [x Hx]. exists (x ++ rest1). rewrite app_assoc, Hx. exact H1. }
  destruct o as [[m' r]| |], o1 as [[m1 r1]| |]; try contradiction.
  - cbn in Ho. red in Ho. cbn in Ho. subst m1. destruct H as (H0 & H1 & is & outs & (H3 & _ & _ & H4) & H5 & H6).
    assert (unbroken tr1) as HU. { destruct (unbroken_or tr1) as [HU|HU]; [exact HU|]. destruct (exec_stops _ _ _ He1 HU) as (? & ? & ? & ? & ?). discriminate. }
    split; [exact H0|]. exists is, outs. split; [|split; [|split; [|split; [|exact H6]]]].
    + rewrite <- H1, (told_ops tr1 HU). apply Permutation_flat_map. symmetry. exact H3.
    + rewrite (same_told _ _ _ _ _ _ tr tr1 Hs HU). apply Permutation_flat_map, filter_perm, H3.
    + rewrite <- (same_clones _ _ _ _ _ _ tr tr1 Hs). exact H4.
    + clear - H5 Hs. induction H5 as [|i out is outs Hi H5 IH]; constructor; [|exact IH]. destruct Hi as [Hi Hj]. split.
      * eapply same_from; [exact Hs|exact Hi|intros; first [apply tw_from_fair|apply mw_from_fair|apply sw_from_fair|apply skw_from_fair]; assumption..].
      * exact Hj.
  - destruct H as [H (rest & H1)]. split; [|eapply Hrest; eassumption]. destruct H as [H|H]; [left; eapply same_broke|right; eapply same_differ]; eassumption.
  - destruct H as [H (rest & H1)]. split; [exact H|eapply Hrest; eassumption].
Qed.

Theorem const_set_mm_ends (m : tset K) (right : tset L) (wb : mway R) (wl : mway R) (wr : mway R) tr (o : outcome (tset S * R)) :
  misused m -> misused right -> exec (aset_mm (S := S) wb wl wr m right) tr o -> longest m < 3 -> longest right < 3 ->
  (unbroken tr /\ exists x, o = Ret x) \/ (unbroken tr /\ hashes_differ tr /\ o = Panic) \/ (exists tr' q, tr = tr' ++ [broke q] /\ unbroken tr' /\ o = Panic).
Proof.
  intros Hm Hr He HA HB. destruct (unbroken_or tr) as [HU|HU]; [|right; right; exact (exec_stops _ _ _ He HU)].
  apply const_set_mm in He; [|assumption..]. destruct o as [x| |]; [left; eauto| |exfalso; lia].
  right; left. split; [exact HU|]. split; [|reflexivity]. destruct He as [[[q Hq]|H] _]; [destruct (HU q Hq)|exact H].
Qed.

Theorem const_set_mm_steady {KK : Key K} {KL : Key L} {KS : Key S} (m : tset K) (right : tset L) (wb : mway R) (wl : mway R) (wr : mway R) tr (o : outcome (tset S * R)) :
  unequal m -> unequal right -> Forall smm_steady tr -> exec (aset_mm (S := S) wb wl wr m right) tr o ->
  match o with Ret (m', r) => unequal m' | Panic => jpanicked tr | Diverge => 3 <= longest m \/ 3 <= longest right end.
Proof.
  intros Hm Hr Ht He. destruct (const_set_mm_run m right wb wl wr tr o (unequal_misused _ Hm) (unequal_misused _ Hr) He) as (tr1 & o1 & He1 & Hs & Ho).
  assert (Forall smm_steady tr1) as Ht1.
  { rewrite Forall_forall in Ht |- *. intros e Hi. destruct (jkeep (mw_closure wb) (mw_closure wl) (mw_closure wr) (asked e)) eqn:Hk; [apply Ht; eapply same_in; eassumption|].
    pose proof (same_fair _ _ _ _ _ _ _ _ e Hs Hi) as Hf. clear - Hk Hf. destruct e as [q [a|]]; destruct q; cbn in Hk, Hf |- *; try discriminate; auto;
      repeat match goal with w : tway R |- _ => destruct w | w : mway R |- _ => destruct w end; cbn in *; try discriminate; try subst a; repeat split; cbn; auto. }
  pose proof (unequal_set_mm m right tr1 o1 Hm Hr Ht1 He1) as H.
  destruct o as [[m' r]| |], o1 as [[m1 r1]| |]; try contradiction; [|eapply same_broke; eassumption|exact H].
  red in Ho; red in Ho. cbn in Ho. subst m1. exact H.
Qed.
End SET_MM.

Section TF.
Context {E : Env} {K V W R : Type}.
Theorem const_tf_run (m : trie K V) (right : trie K W) st (wb : tway R) (wl : tway R) (wr : mway R) tr (o : outcome (trie K V * R * origin)) :
  misused m -> misused right -> exec (ask_tf st wb wl wr m right) tr o ->
  exists tr1 o1, exec (ask_tf st TwClosure TwClosure MwClosure m right) tr1 o1 /\
    same (jkeep (tw_closure wb) (tw_closure wl) (mw_closure wr)) jsoft (jfair (tw_fair wb) (tw_fair wl) (skw_fair wr)) tr tr1 /\ orel same_map o o1.
Proof. intros Hm Hr. exact (tf_sim st wb wl wr m right (misused_loose m Hm) (misused_loose right Hr) tr o). Qed.

Theorem const_tf (m : trie K V) (right : trie K W) st (wb : tway R) (wl : tway R) (wr : mway R) tr (o : outcome (trie K V * R * origin)) :
  misused m -> misused right -> exec (ask_tf st wb wl wr m right) tr o ->
  match o with
  | Ret (m', r, og) => misused m' /\ (og = Self -> m' = m) /\
      exists is outs, Permutation (flat_map item_told is) (map inl (map_visit m) ++ map inr (map_visit right)) /\
        Permutation (jtold_all tr) (flat_map item_told (filter (item_called (tw_closure wb) (tw_closure wl) (mw_closure wr)) is)) /\
        (exists rest, Permutation (clones jsee tr ++ rest) (flat_map tf_cost is)) /\
        Forall2 (tf_goes wb wl wr tr) is outs /\ Permutation (map_visit m') (concat outs)
  | Panic => (jpanicked tr \/ hashes_differ tr) /\ exists rest, Permutation (jtold_all tr ++ rest) (map inl (map_visit m) ++ map inr (map_visit right))
  | Diverge => (3 <= longest right) /\ exists rest, Permutation (jtold_all tr ++ rest) (map inl (map_visit m) ++ map inr (map_visit right))
  end.
Proof.
  intros Hm Hr He. destruct (const_tf_run m right st wb wl wr tr o Hm Hr He) as (tr1 & o1 & He1 & Hs & Ho).
  pose proof (misused_tf m right st tr1 o1 Hm Hr He1) as H.
  assert (forall rest1, Permutation (jtold_all tr1 ++ rest1) (map inl (map_visit m) ++ map inr (map_visit right)) -> exists rest, Permutation (jtold_all tr ++ rest) (map inl (map_visit m) ++ map inr (map_visit right))) as Hrest.
  { intros rest1 H1. destruct (same_told_rest _ _ _ _ _ _ tr tr1 Hs) as [x Hx]. exists (x ++ rest1). rewrite app_assoc, Hx. exact H1. }
  destruct o as [[[m' r] og]| |], o1 as [[[m1 r1] og1]| |]; try contradiction.
  - destruct Ho as [Hm' Hog]. cbn in Hm', Hog. subst m1 og1. destruct H as (H0 & H1 & H2 & is & outs & (H3 & _ & _ & H4) & H5 & H6).
    assert (unbroken tr1) as HU. { destruct (unbroken_or tr1) as [HU|HU]; [exact HU|]. destruct (exec_stops _ _ _ He1 HU) as (? & ? & ? & ? & ?). discriminate. }
    split; [exact H0|]. split; [exact H2|]. exists is, outs. split; [|split; [|split; [|split; [|exact H6]]]].
    + rewrite <- H1, (told_ops tr1 HU). apply Permutation_flat_map. symmetry. exact H3.
    + rewrite (same_told _ _ _ _ _ _ tr tr1 Hs HU). apply Permutation_flat_map, filter_perm, H3.
    + rewrite <- (same_clones _ _ _ _ _ _ tr tr1 Hs). exact H4.
    + clear - H5 Hs. induction H5 as [|i out is outs Hi H5 IH]; constructor; [|exact IH]. destruct Hi as [Hi Hj]. split.
      * eapply same_from; [exact Hs|exact Hi|intros; first [apply tw_from_fair|apply mw_from_fair|apply sw_from_fair|apply skw_from_fair]; assumption..].
      * destruct i; becomes_tac Hs Hj.
  - destruct H as [H (rest & H1)]. split; [|eapply Hrest; eassumption]. destruct H as [H|H]; [left; eapply same_broke|right; eapply same_differ]; eassumption.
  - destruct H as [H (rest & H1)]. split; [exact H|eapply Hrest; eassumption].
Qed.

Theorem const_tf_ends (m : trie K V) (right : trie K W) st (wb : tway R) (wl : tway R) (wr : mway R) tr (o : outcome (trie K V * R * origin)) :
  misused m -> misused right -> exec (ask_tf st wb wl wr m right) tr o -> longest right < 3 ->
  (unbroken tr /\ exists x, o = Ret x) \/ (unbroken tr /\ hashes_differ tr /\ o = Panic) \/ (exists tr' q, tr = tr' ++ [broke q] /\ unbroken tr' /\ o = Panic).
Proof.
  intros Hm Hr He HA. destruct (unbroken_or tr) as [HU|HU]; [|right; right; exact (exec_stops _ _ _ He HU)].
  apply const_tf in He; [|assumption..]. destruct o as [x| |]; [left; eauto| |exfalso; lia].
  right; left. split; [exact HU|]. split; [|reflexivity]. destruct He as [[[q Hq]|H] _]; [destruct (HU q Hq)|exact H].
Qed.

Theorem const_tf_steady {KK : Key K} (m : trie K V) (right : trie K W) st (wb : tway R) (wl : tway R) (wr : mway R) tr (o : outcome (trie K V * R * origin)) :
  unequal m -> unequal right -> Forall jsteady tr -> exec (ask_tf st wb wl wr m right) tr o ->
  match o with Ret (m', r, og) => unequal m' | Panic => jpanicked tr | Diverge => 3 <= longest right end.
Proof.
  intros Hm Hr Ht He. destruct (const_tf_run m right st wb wl wr tr o (unequal_misused _ Hm) (unequal_misused _ Hr) He) as (tr1 & o1 & He1 & Hs & Ho).
  assert (Forall jsteady tr1) as Ht1.
  { rewrite Forall_forall in Ht |- *. intros e Hi. destruct (jkeep (tw_closure wb) (tw_closure wl) (mw_closure wr) (asked e)) eqn:Hk; [apply Ht; eapply same_in; eassumption|].
    pose proof (same_fair _ _ _ _ _ _ _ _ e Hs Hi) as Hf. clear - Hk Hf. destruct e as [q [a|]]; destruct q; cbn in Hk, Hf |- *; try discriminate; auto;
      repeat match goal with w : tway R |- _ => destruct w | w : mway R |- _ => destruct w end; cbn in *; try discriminate; try subst a; repeat split; cbn; auto. }
  pose proof (unequal_tf m right st tr1 o1 Hm Hr Ht1 He1) as H.
  destruct o as [[[m' r] og]| |], o1 as [[[m1 r1] og1]| |]; try contradiction; [|eapply same_broke; eassumption|exact H].
  destruct Ho as [Ho _]. cbn in Ho. subst m1. exact H.
Qed.
End TF.

Section FT.
Context {E : Env} {K V W R : Type}.
Theorem const_ft_run (m : trie K V) (right : trie K W) st (wb : tway R) (wl : mway R) (wr : tway R) tr (o : outcome (trie K W * R * origin)) :
  misused m -> misused right -> exec (ask_ft st wb wl wr m right) tr o ->
  exists tr1 o1, exec (ask_ft st TwClosure MwClosure TwClosure m right) tr1 o1 /\
    same (jkeep (tw_closure wb) (mw_closure wl) (tw_closure wr)) jsoft (jfair (tw_fair wb) (skw_fair wl) (tw_fair wr)) tr tr1 /\ orel same_map o o1.
Proof. intros Hm Hr. exact (ft_sim st wb wl wr m right (misused_loose m Hm) (misused_loose right Hr) tr o). Qed.

Theorem const_ft (m : trie K V) (right : trie K W) st (wb : tway R) (wl : mway R) (wr : tway R) tr (o : outcome (trie K W * R * origin)) :
  misused m -> misused right -> exec (ask_ft st wb wl wr m right) tr o ->
  match o with
  | Ret (m', r, og) => misused m' /\ (og = Right -> m' = right) /\
      exists is outs, Permutation (flat_map item_told is) (map inl (map_visit m) ++ map inr (map_visit right)) /\
        Permutation (jtold_all tr) (flat_map item_told (filter (item_called (tw_closure wb) (mw_closure wl) (tw_closure wr)) is)) /\
        (exists rest, Permutation (clones jsee tr ++ rest) (flat_map ft_cost is)) /\
        Forall2 (ft_goes wb wl wr tr) is outs /\ Permutation (map_visit m') (concat outs)
  | Panic => (jpanicked tr \/ hashes_differ tr) /\ exists rest, Permutation (jtold_all tr ++ rest) (map inl (map_visit m) ++ map inr (map_visit right))
  | Diverge => (3 <= longest m) /\ exists rest, Permutation (jtold_all tr ++ rest) (map inl (map_visit m) ++ map inr (map_visit right))
  end.
Proof.
  intros Hm Hr He. destruct (const_ft_run m right st wb wl wr tr o Hm Hr He) as (tr1 & o1 & He1 & Hs & Ho).
  pose proof (misused_ft m right st tr1 o1 Hm Hr He1) as H.
  assert (forall rest1, Permutation (jtold_all tr1 ++ rest1) (map inl (map_visit m) ++ map inr (map_visit right)) -> exists rest, Permutation (jtold_all tr ++ rest) (map inl (map_visit m) ++ map inr (map_visit right))) as Hrest.
  { intros rest1 H1. destruct (same_told_rest _ _ _ _ _ _ tr tr1 Hs) as [x Hx]. exists (x ++ rest1). rewrite app_assoc, Hx. exact H1. }
  destruct o as [[[m' r] og]| |], o1 as [[[m1 r1] og1]| |]; try contradiction.
  - destruct Ho as [Hm' Hog]. cbn in Hm', Hog. subst m1 og1. destruct H as (H0 & H1 & H2 & is & outs & (H3 & _ & _ & H4) & H5 & H6).
    assert (unbroken tr1) as HU. { destruct (unbroken_or tr1) as [HU|HU]; [exact HU|]. destruct (exec_stops _ _ _ He1 HU) as (? & ? & ? & ? & ?). discriminate. }
    split; [exact H0|]. split; [exact H2|]. exists is, outs. split; [|split; [|split; [|split; [|exact H6]]]].
    + rewrite <- H1, (told_ops tr1 HU). apply Permutation_flat_map. symmetry. exact H3.
    + rewrite (same_told _ _ _ _ _ _ tr tr1 Hs HU). apply Permutation_flat_map, filter_perm, H3.
    + rewrite <- (same_clones _ _ _ _ _ _ tr tr1 Hs). exact H4.
    + clear - H5 Hs. induction H5 as [|i out is outs Hi H5 IH]; constructor; [|exact IH]. destruct Hi as [Hi Hj]. split.
      * eapply same_from; [exact Hs|exact Hi|intros; first [apply tw_from_fair|apply mw_from_fair|apply sw_from_fair|apply skw_from_fair]; assumption..].
      * destruct i; becomes_tac Hs Hj.
  - destruct H as [H (rest & H1)]. split; [|eapply Hrest; eassumption]. destruct H as [H|H]; [left; eapply same_broke|right; eapply same_differ]; eassumption.
  - destruct H as [H (rest & H1)]. split; [exact H|eapply Hrest; eassumption].
Qed.

Theorem const_ft_ends (m : trie K V) (right : trie K W) st (wb : tway R) (wl : mway R) (wr : tway R) tr (o : outcome (trie K W * R * origin)) :
  misused m -> misused right -> exec (ask_ft st wb wl wr m right) tr o -> longest m < 3 ->
  (unbroken tr /\ exists x, o = Ret x) \/ (unbroken tr /\ hashes_differ tr /\ o = Panic) \/ (exists tr' q, tr = tr' ++ [broke q] /\ unbroken tr' /\ o = Panic).
Proof.
  intros Hm Hr He HA. destruct (unbroken_or tr) as [HU|HU]; [|right; right; exact (exec_stops _ _ _ He HU)].
  apply const_ft in He; [|assumption..]. destruct o as [x| |]; [left; eauto| |exfalso; lia].
  right; left. split; [exact HU|]. split; [|reflexivity]. destruct He as [[[q Hq]|H] _]; [destruct (HU q Hq)|exact H].
Qed.

Theorem const_ft_steady {KK : Key K} (m : trie K V) (right : trie K W) st (wb : tway R) (wl : mway R) (wr : tway R) tr (o : outcome (trie K W * R * origin)) :
  unequal m -> unequal right -> Forall jsteady tr -> exec (ask_ft st wb wl wr m right) tr o ->
  match o with Ret (m', r, og) => unequal m' | Panic => jpanicked tr | Diverge => 3 <= longest m end.
Proof.
  intros Hm Hr Ht He. destruct (const_ft_run m right st wb wl wr tr o (unequal_misused _ Hm) (unequal_misused _ Hr) He) as (tr1 & o1 & He1 & Hs & Ho).
  assert (Forall jsteady tr1) as Ht1.
  { rewrite Forall_forall in Ht |- *. intros e Hi. destruct (jkeep (tw_closure wb) (mw_closure wl) (tw_closure wr) (asked e)) eqn:Hk; [apply Ht; eapply same_in; eassumption|].
    pose proof (same_fair _ _ _ _ _ _ _ _ e Hs Hi) as Hf. clear - Hk Hf. destruct e as [q [a|]]; destruct q; cbn in Hk, Hf |- *; try discriminate; auto;
      repeat match goal with w : tway R |- _ => destruct w | w : mway R |- _ => destruct w end; cbn in *; try discriminate; try subst a; repeat split; cbn; auto. }
  pose proof (unequal_ft m right st tr1 o1 Hm Hr Ht1 He1) as H.
  destruct o as [[[m' r] og]| |], o1 as [[[m1 r1] og1]| |]; try contradiction; [|eapply same_broke; eassumption|exact H].
  destruct Ho as [Ho _]. cbn in Ho. subst m1. exact H.
Qed.
End FT.

