(** transform_with_transformed with any client and any two maps: what it returns is a map,
    of entries that came from somewhere, in place if the hashes are in order. *)
From Coq Require Import NArith Arith List Bool Lia Permutation.
From Verif Require Import Base Words WordsP Flag FlagP Bia BiaP Node Inv InsertP Api Trans Transform Joint JointT JoinP JointLeafP LoopP TransformP PermP Profile Eff EffP EffTP EffApi Ask AskP SpecAsk AskOpP AskInsP AskHashP AskT SpecAskT AskTP AskTTP AskTopP
  AskJ SpecAskJ AskJP AskJTopP AskJPlaceP AskTw SpecAskTw AskTwTravP AskTwShapeP.
Import ListNotations.
Open Scope N_scope.

Lemma shaped_all {E : Env} {K V} (leaf : N -> N -> list (K * V) -> Prop) (P : K * V -> Prop) deep n : forall d p,
  shaped leaf deep d p n -> Forall P (m_visit n) -> shaped (fun d p es => leaf d p es /\ Forall P es) deep d p n.
Proof.
  induction n as [bits values x IH|l|s] using mnode_ind'; intros d p Hs Hp; inversion Hs; subst; constructor; auto.
  intros i c Hg. rewrite Forall_forall in IH. apply IH; [eapply getv_in; exact Hg|auto|].
  cbn in Hp. rewrite Forall_forall in *. intros e He. apply Hp. apply in_concat. exists (m_visit c). split; [|exact He]. apply in_map. eapply getv_in; exact Hg.
Qed.
Lemma shaped_visit {E : Env} {K V} (leaf : N -> N -> list (K * V) -> Prop) (P : K * V -> Prop) deep n : (forall d p es, leaf d p es -> Forall P es) -> forall d p,
  shaped leaf deep d p n -> Forall P (m_visit n).
Proof.
  intros HL. induction n as [bits values x IH|l|s] using mnode_ind'; intros d p Hs; inversion Hs; subst; try (cbn; eapply HL; eassumption).
  cbn. rewrite Forall_forall in *. intros e He. apply in_concat in He. destruct He as (es & He1 & He2). apply in_map_iff in He1. destruct He1 as (c & <- & Hc).
  destruct (in_values_get (max_ones fw) bits values c) as (j & _ & Hj); [assumption|exact Hc|]. specialize (IH c Hc _ _ ltac:(eauto)). rewrite Forall_forall in IH. auto.
Qed.

(** * Anywhere *)
Section Wide.
Context {E : Env} {K V : Type} (bad : Prop) (said : word -> Prop) (Hsaid : forall w w', said w -> said w' -> proj1_sig w <> proj1_sig w' -> bad) (pk : K -> Prop) (pv : V -> Prop).
Definition wide : ground bad K V.
Proof.
  refine (Ground E bad K V (fun _ => pk) pv (fun _ w => said w) (fun _ _ _ => True) useful _ _ _ _).
  - auto.
  - intros d p h w Hd _ _. destruct (flag_usable (proj1_sig w) d Hd) as (f & H1 & (_ & i & H2 & H3) & _). exists f, i. auto.
  - intros d p h h' w w' S1 S2 _ _ Hs. pose proof (Hsaid w w' S1 S2 (same_hash_false _ _ Hs)) as HB. unfold aflags.
    destruct (flag_any (proj1_sig w) d) as [(f & -> & Hf & _ & HU)|[[-> _]|[-> _]]]; cbn; try exact HB.
    destruct (flag_any (proj1_sig w') d) as [(f' & -> & Hf' & _)|[[-> _]|[-> _]]]; cbn; try exact HB.
    intros a b [Ha Pa] [Hb Pb]. pose proof (cnode_lift_loose d a f b f' Ha Hb Hf Hf' HU) as H. destruct (cnode_lift a f b f') as [c| |]; [|exact HB|exact H]. destruct H as [H1 H2].
    eapply shaped_imp; [|apply (shaped_all free (fun e => pk (fst e) /\ pv (snd e))); [apply loose_free, H1|]].
    + intros d' p' es [_ Hes]. exists 0. auto.
    + eapply Permutation_Forall; [symmetry; exact H2|]. apply Forall_app. auto.
  - auto.
Defined.
Lemma wide_in d p n : loose d n -> Forall (fun e => pk (fst e) /\ pv (snd e)) (m_visit n) -> shaped (leaf_of (has wide) (g_lies wide)) (g_deep wide) d p n.
Proof.
  intros H1 H2. eapply shaped_imp; [|apply (shaped_all free (fun e => pk (fst e) /\ pv (snd e))); [apply loose_free, H1|exact H2]]. intros d' p' es [_ Hes]. exists 0. split; [exact Hes|exact I].
Qed.
Lemma wide_out d p n : shaped (leaf_of (has wide) (g_lies wide)) (g_deep wide) d p n -> loose d n /\ Forall (fun e => pk (fst e) /\ pv (snd e)) (m_visit n).
Proof.
  intros H. split.
  - eapply free_loose, shaped_imp; [|exact H]. intros d' p' es _. exists 0. split; [apply Forall_forall; auto|exact I].
  - eapply shaped_visit; [|exact H]. intros d' p' es (h & He & _). exact He.
Qed.
End Wide.

(** * By the hash *)
Section Close.
Context {E : Env} {K V : Type} {KK : Key K} (bad : Prop).
Definition close : ground bad K V.
Proof.
  refine (Ground E bad K V (fun h k => hashk k = h) (fun _ => True) (fun h w => proj1_sig w = h) onpath within _ _ _ _).
  - intros d p i h [_ Hp] [H1 H2]. split; [apply (pre_idx d h p i Hp H1)|exact H2].
  - intros d p h w [Hd Hp] <- [H1 H2]. exists (mkFlag (proj1_sig w) d (2 ^ idx d (proj1_sig w))), (idx d (proj1_sig w)).
    split; [apply flag_at_ok, Hd|]. split; [reflexivity|]. split; [apply idx_lt|]. split; [rewrite pre_succ, H1; reflexivity|exact H2].
  - intros d p h h' w w' <- <- [H1 H2] [H3 H4] Hs. apply same_hash_false in Hs.
    assert (Hd : off d < hbits) by (eapply (neq_off d (proj1_sig w) (proj1_sig w')); try assumption; congruence).
    unfold aflags. rewrite !flag_at_ok by exact Hd. cbn [bind unwrap]. intros a b [Ha Ha'] [Hb Hb'].
    destruct (c_lift_placed lift_fuel d (proj1_sig w) (proj1_sig w') a (mkFlag (proj1_sig w) d (2 ^ idx d (proj1_sig w))) b (mkFlag (proj1_sig w') d (2 ^ idx d (proj1_sig w'))))
      as (c' & Hc & HP & HV); try assumption.
    + split; [exact Ha|]. apply hashed_all. eapply Forall_impl; [|exact Ha']. intros e [He _]. exact He.
    + split; [exact Hb|]. apply hashed_all. eapply Forall_impl; [|exact Hb']. intros e [He _]. exact He.
    + congruence.
    + apply flag_for_at, Hd.
    + apply flag_for_at, Hd.
    + apply lift_fuel_ok.
    + unfold cnode_lift. rewrite Hc. rewrite H1 in HP. eapply shaped_imp; [|apply placed_near, HP].
      intros d' p' es (h & He & Hl). exists h. split; [|exact Hl]. eapply Forall_impl; [|exact He]. intros e H. split; [exact H|exact I].
  - intros h x h' x' <- <- -> k Hk. exact Hk.
Defined.
Lemma close_in d p n : placed d p n -> shaped (leaf_of (has close) (g_lies close)) (g_deep close) d p n.
Proof.
  intros H. eapply shaped_imp; [|apply placed_near, H]. intros d' p' es (h & He & Hl). exists h. split; [|exact Hl].
  eapply Forall_impl; [|exact He]. intros e G. split; [exact G|exact I].
Qed.
Lemma close_out d p n : shaped (leaf_of (has close) (g_lies close)) (g_deep close) d p n -> placed d p n.
Proof.
  intros H. apply near_placed. eapply shaped_imp; [|exact H]. intros d' p' es (h & He & Hl). exists h. split; [|exact Hl].
  eapply Forall_impl; [|exact He]. intros e [G _]. exact G.
Qed.
End Close.

(** * The operation *)
Section Op.
Context {E : Env} {K V R : Type}.
Notation A := (jreply K V K V K V (bres V R) (vres V R) (vres V R) R).
Implicit Types tr : list (event (A := A)).

Lemma ask_y (good : event (A := A) -> Prop) (bad stuck : Prop) q (P : A q -> Prop) : (good (broke q) -> bad) -> (forall a, good (answer q a) -> P a) -> yields good bad stuck (PAsk q PRet) P.
Proof.
  intros HB H tr o [(a & t & -> & -> & ->)|[-> ->]] Hg; inversion Hg; subst; cbn [ends]; auto.
Qed.
Lemma ask_tt_y (good : event (A := A) -> Prop) (bad stuck : Prop) (g : ground bad K V) st wb wl wr (m right : trie K V) :
  (forall q, good (broke q) -> bad) ->
  (forall k k', good (answer (A := A) (JKey k) k') -> forall h, g_key g h k -> g_key g h k') ->
  (forall v v', good (answer (A := A) (JValue v) v') -> g_val g v -> g_val g v') ->
  (forall k w, good (answer (A := A) (JHash k) w) -> forall h, g_key g h k -> g_tells g h w) ->
  (forall k w, good (answer (A := A) (JHash' k) w) -> forall h, g_key g h k -> g_tells g h w) ->
  (forall x y o, good (answer (A := A) (JBoth x y) o) -> newb (g_val g) o) ->
  (forall x o, good (answer (A := A) (JLeft x) o) -> newv (g_val g) o) ->
  (forall x o, good (answer (A := A) (JRight x) o) -> newv (g_val g) o) ->
  shaped (leaf_of (has g) (g_lies g)) (g_deep g) 0 0 m -> shaped (leaf_of (has g) (g_lies g)) (g_deep g) 0 0 right -> g_deep g 0 0 -> pairs bad stuck m right ->
  yields good bad stuck (ask_tt st wb wl wr m right)
    (fun y => shaped (leaf_of (has g) (g_lies g)) (g_deep g) 0 0 (fst (fst y)) /\ (snd y = Self -> fst (fst y) = m) /\ (snd y = Right -> fst (fst y) = right)).
Proof.
  intros HB H1 H2 H3 H4 H5 H6 H7 Hm Hr H0 HP. unfold ask_tt. eapply y_bind; [apply (am_tt_y good stuck g); [|exact Hm|exact Hr|exact HP]|].
  - constructor.
    + apply (ask_y good bad stuck JDefault _ (HB _)). auto.
    + intros x y. apply (ask_y good bad stuck (JReduce x y) _ (HB _)). auto.
    + intros x y. apply (ask_y good bad stuck (JEq x y) _ (HB _)). auto.
    + intros x y. apply (ask_y good bad stuck (JEq' x y) _ (HB _)). auto.
    + intros k. apply (ask_y good bad stuck (JKey k) _ (HB _)), H1.
    + intros v. apply (ask_y good bad stuck (JValue v) _ (HB _)), H2.
    + intros k. apply (ask_y good bad stuck (JHash k) _ (HB _)), H3.
    + intros k. apply (ask_y good bad stuck (JHash' k) _ (HB _)), H4.
    + intros x y. destruct wb; cbn [jw_op ejcall]; try (apply y_ret; exact I). apply (ask_y good bad stuck (JBoth x y) _ (HB _)), H5.
    + intros x. destruct wl; cbn [tw_op etcall]; try (apply y_ret; exact I). apply (ask_y good bad stuck (JLeft x) _ (HB _)), H6.
    + intros x. destruct wr; cbn [tw_op etcall]; try (apply y_ret; exact I). apply (ask_y good bad stuck (JRight x) _ (HB _)), H7.
  - intros [r|r|r|n] Hy; apply y_ret; cbn [fst snd]; try (split; [assumption|split; [reflexivity || discriminate|reflexivity || discriminate]]). split; [|split; discriminate].
    cbn [jshape] in Hy. destruct n as [c r|l r|s r|r]; cbn [nres_trie fst] in *; try (apply Hy; reflexivity).
    constructor; [exact H0|apply okv_nil|right; reflexivity|reflexivity|]. intros i c. rewrite getv_nil. discriminate.
Qed.

Definition from tr (m right : trie K V) (e : K * V) : Prop :=
  key_from tr (map fst (map_visit m ++ map_visit right)) (fst e) /\ value_from tr (map snd (map_visit m ++ map_visit right)) (snd e).

Lemma loose_tt_any st wb wl wr (m right : trie K V) tr (o : outcome (trie K V * R * origin)) : loose 0 m -> loose 0 right -> exec (ask_tt st wb wl wr m right) tr o ->
  match o with
  | Ret (m', r, og) => loose 0 m' /\ Forall (from tr m right) (map_visit m') /\ (og = Self -> m' = m) /\ (og = Right -> m' = right)
  | Panic => jpanicked tr \/ hashes_differ tr \/ (2 <= longest m /\ 2 <= longest right)
  | Diverge => 2 <= longest m /\ 2 <= longest right /\ (3 <= longest m \/ 3 <= longest right)
  end.
Proof.
  intros Hm Hr He. set (pk := key_from tr (map fst (map_visit m ++ map_visit right))). set (pv := value_from tr (map snd (map_visit m ++ map_visit right))).
  assert (Hin : forall e, In e (map_visit m ++ map_visit right) -> pk (fst e) /\ pv (snd e)) by (intros e H; split; constructor; apply in_map; exact H).
  set (bad := jpanicked tr \/ hashes_differ tr \/ (2 <= longest m /\ 2 <= longest right)). set (stuck := 2 <= longest m /\ 2 <= longest right /\ (3 <= longest m \/ 3 <= longest right)).
  assert (Hsaid : forall w w', hash_said tr w -> hash_said tr w' -> proj1_sig w <> proj1_sig w' -> bad) by (intros w w' H1 H2 H3; right; left; exists w, w'; auto).
  assert (HY : yields (fun e => In e tr) bad stuck (ask_tt st wb wl wr m right)
    (fun y => shaped (leaf_of (has (wide bad (hash_said tr) Hsaid pk pv)) (g_lies (wide bad (hash_said tr) Hsaid pk pv))) (g_deep (wide bad (hash_said tr) Hsaid pk pv)) 0 0 (fst (fst y)) /\
      (snd y = Self -> fst (fst y) = m) /\ (snd y = Right -> fst (fst y) = right))).
  { apply ask_tt_y.
    - intros q H. left. exists q. exact H.
    - intros k k' H h Hk. exact (kf_clone _ _ _ _ Hk H).
    - intros v v' H Hv. exact (vf_clone _ _ _ _ Hv H).
    - intros k w H h _. left. exists k. exact H.
    - intros k w H h _. right. exists k. exact H.
    - intros x y [| | |v z|] H; try exact I. exact (vf_both _ _ _ _ _ _ H).
    - intros x [|v z|] H; try exact I. exact (vf_left _ _ _ _ _ H).
    - intros x [|v z|] H; try exact I. exact (vf_right _ _ _ _ _ H).
    - apply wide_in; [exact Hm|]. apply Forall_forall. intros e H. apply Hin, in_or_app. left. exact H.
    - apply wide_in; [exact Hr|]. apply Forall_forall. intros e H. apply Hin, in_or_app. right. exact H.
    - apply usable_0.
    - intros H2 H3. split; [right; right; auto|]. intros H. split; [exact H2|]. auto. }
  assert (HF : Forall (fun e => In e tr) tr) by (apply Forall_forall; auto).
  specialize (HY tr o He HF). destruct o as [[[m' r] og]| |]; [|exact HY..]. destruct HY as (H1 & H2). apply wide_out in H1. destruct H1 as [H1 H3]. auto.
Qed.

Lemma placed_tt_any {KK : Key K} st wb wl wr (m right : trie K V) tr (o : outcome (trie K V * R * origin)) : placed 0 0 m -> placed 0 0 right -> Forall jsteady tr -> exec (ask_tt st wb wl wr m right) tr o ->
  match o with
  | Ret (m', r, og) => placed 0 0 m'
  | Panic => jpanicked tr \/ (2 <= longest m /\ 2 <= longest right)
  | Diverge => 2 <= longest m /\ 2 <= longest right /\ (3 <= longest m \/ 3 <= longest right)
  end.
Proof.
  intros Hm Hr HS He.
  set (bad := jpanicked tr \/ (2 <= longest m /\ 2 <= longest right)). set (stuck := 2 <= longest m /\ 2 <= longest right /\ (3 <= longest m \/ 3 <= longest right)).
  assert (HY : yields (fun e => In e tr /\ jsteady e) bad stuck (ask_tt st wb wl wr m right)
    (fun y => shaped (leaf_of (has (close (V := V) bad)) (g_lies (close (V := V) bad))) (g_deep (close (V := V) bad)) 0 0 (fst (fst y)) /\ (snd y = Self -> fst (fst y) = m) /\ (snd y = Right -> fst (fst y) = right))).
  { apply ask_tt_y.
    - intros q [H _]. left. exists q. exact H.
    - intros k k' [_ H] h Hk. cbn in *. congruence.
    - intros. exact I.
    - intros k w [_ H] h Hk. cbn in *. congruence.
    - intros k w [_ H] h Hk. cbn in *. congruence.
    - intros x y [| | |v z|] H; exact I.
    - intros x [|v z|] H; exact I.
    - intros x [|v z|] H; exact I.
    - apply close_in, Hm.
    - apply close_in, Hr.
    - apply within_0.
    - intros H2 H3. split; [right; auto|]. intros H. split; [exact H2|]. auto. }
  assert (HF : Forall (fun e => In e tr /\ jsteady e) tr) by (rewrite Forall_forall in *; auto).
  specialize (HY tr o He HF). destruct o as [[[m' r] og]| |]; [|exact HY..]. destruct HY as (H1 & _). apply close_out in H1. exact H1.
Qed.
End Op.
