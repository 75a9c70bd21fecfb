(** The public operations on [built] maps. *)
From Coq Require Import NArith Arith List Bool Lia ZifyBool ZifyN ZifyNat Permutation.
From Verif Require Import Base Words WordsP Flag FlagP Bia BiaP Node Spec SpecP Inv NodeP InsertP TrieP Api ApiP
  Trans Transform Weak LoopP SpecT TransformP TransApiP Joint SpecJ JointLeafP JointNodeP JointT StratP HangP KeepP
  WeakP WeakOpP WeakTransP WeakJointP WeakLeafP WeakMapP Reach Built.
Import ListNotations.
Open Scope N_scope.

(** The invariant of [built] maps. *)
Definition mww {E : Env} {K V} {KK : Key K} (P : K * V -> Prop) (m : trie K V) : Prop := ww P 0 0 m.

Section One.
Context {E : Env} {K V : Type} {KK : Key K}.
Context (P : K * V -> Prop).

Lemma mww_new : mww P map_new.
Proof. eapply ww_mono; [|apply wf_ww; exact mwf_new]. intros e []. Qed.

Lemma mww_any (m : trie K V) : mww P m -> mww (fun _ => True) m.
Proof. apply ww_mono. auto. Qed.

Lemma nres_trie_w {R} (n : nres K V R) : nww P 0 0 n -> mww P (fst (nres_trie n)).
Proof. intros H. destruct n; cbn; try (apply H; reflexivity). apply mww_new. Qed.

Lemma map_size_w (m : trie K V) : mww P m -> map_size m = lenN (map_visit m).
Proof. apply ww_size. Qed.

Section Query.
Context {Q : Type} {KQ : Key Q}.

Lemma map_find_w (m : trie K V) (q : Q) : mww P m -> map_find m q = Ret (find_res (hd_error (sel (cls q) (map_visit m)))).
Proof.
  intros H. unfold map_find. rewrite flag_new_ok. cbn [bind].
  rewrite (m_find_w P 0 0 m H q _ (flag_for_0 _)). cbn [bind]. unfold map_visit.
  destruct (hd_error (sel (cls q) (m_visit m))); reflexivity.
Qed.

Lemma map_insert_w (into : Q -> K) (m : trie K V) q v replace : mww P m -> P (into q, v) -> cls (into q) = cls q ->
  if checked && deep m (cls q) then map_insert into m q v replace = Panic
  else match stack_insert (into q) v replace (sel (cls q) (map_visit m)) with
       | Err e => map_insert into m q v replace = Ret (Err e)
       | Ok (stk, prev) => exists m', map_insert into m q v replace = Ret (Ok (m', (into q, v), prev)) /\
           mww P m' /\ restack (cls q) stk (map_visit m) (map_visit m') /\
           map_size m' = map_size m + match prev with Some _ => 0 | None => 1 end
       end.
Proof.
  intros H HP Hq. unfold map_insert. rewrite flag_new_ok. cbn [bind].
  assert (Hh : hashk q = hashk (into q)) by (unfold hashk; rewrite Hq; reflexivity).
  assert (HW : ww P 0 (pre 0 (hashk (into q))) m) by (rewrite pre_0; exact H).
  pose proof (m_insert_w P m 0 q (into q) v _ replace HW HP (eq_sym Hq) (flag_for_0 _)) as HI.
  unfold deep. change (hash (cls q)) with (hashk q). rewrite Hh.
  destruct (checked && hits 0 (hashk (into q)) m).
  - rewrite HI. reflexivity.
  - destruct HI as (r & Hr & Hi & _). rewrite Hr. cbn [bind]. unfold map_visit.
    rewrite pre_0 in Hi. unfold ins_w in Hi. rewrite Hq in Hi.
    destruct r as [k' v'|c k' v' prev|l k' v' prev|s k' v' prev]; cbn [ires] in Hi.
    1:{ rewrite Hi. reflexivity. }
    all: destruct Hi as (He & HWn & Hlen & stk & Hst & Hre); rewrite Hst; eexists; (split; [rewrite He; reflexivity|]);
      (split; [exact HWn|]); (split; [exact Hre|]); rewrite (map_size_w _ HWn), (map_size_w _ H); exact Hlen.
Qed.

Lemma map_remove_w (m : trie K V) (q : Q) : mww P m ->
  if checked && deep m (cls q) then map_remove m q = Panic
  else match sel (cls q) (map_visit m) with
       | [] => map_remove m q = Ret (Err NotFound)
       | e :: stk => exists m', map_remove m q = Ret (Ok (m', e)) /\ mww P m' /\
           restack (cls q) stk (map_visit m) (map_visit m') /\ map_size m' + 1 = map_size m
       end.
Proof.
  intros H. unfold map_remove. rewrite flag_new_ok. cbn [bind].
  assert (HW : ww P 0 (pre 0 (hashk q)) m) by (rewrite pre_0; exact H).
  pose proof (m_remove_w P m 0 q _ HW (flag_for_0 _)) as HI.
  unfold deep. change (hash (cls q)) with (hashk q).
  destruct (checked && hits 0 (hashk q) m).
  - rewrite HI. reflexivity.
  - destruct HI as (r & Hr & Hi). rewrite Hr. cbn [bind]. unfold map_visit.
    rewrite pre_0 in Hi.
    destruct r as [|c k v|l k v|s k v|k v]; cbn [rem_w rnode] in Hi.
    1:{ rewrite Hi. reflexivity. }
    1-3: destruct Hi as (HWn & _ & Hlen & stk & Hst & Hre); rewrite Hst; eexists; (split; [reflexivity|]);
      (split; [exact HWn|]); (split; [exact Hre|]); rewrite (map_size_w _ HWn), (map_size_w _ H); exact Hlen.
    destruct Hi as (Ho & Hc). rewrite (map_size_w _ H). unfold map_visit. rewrite Ho. rewrite sel_cons.
    change (ecls (k, v)) with (cls k). rewrite Hc, ceqb_refl. eexists. split; [reflexivity|]. split; [apply mww_new|].
    split; [|reflexivity]. intros c'. rewrite sel_cons. change (ecls (k, v)) with (cls k). rewrite Hc.
    change (m_visit map_new) with (@nil (K * V)).
    destruct (ceqb_spec c' (cls q)) as [->|Hn]; [reflexivity|].
    destruct (ceqb_spec (cls q) c') as [Heq|_]; [congruence|reflexivity].
Qed.

End Query.
End One.

Section Trans.
Context {E : Env} {K V R : Type} {KK : Key K}.
Context (rdef : R) (rd : R -> R -> R).
Context (P : K * V -> Prop).

Lemma map_transform_w st (op : transform_op (K * V) V R) (m : trie K V) : mww P m ->
  exists m' r o, map_transform rdef rd st op m = Ret (m', r, o) /\ mww (fun _ => True) m' /\
    map_visit m' = t_map op (map_visit m) /\
    (o = Self -> m' = m) /\
    (forallb (fun e => t_unchanged (tcall op e)) (map_visit m) = true ->
       o = Self \/ (exists x, op = TRemoved x) /\ map_visit m = []) /\
    (forall f, op = TGeneric f -> monoid rdef rd -> r = msum rdef rd (map (fun e => t_red (f e)) (map_visit m))).
Proof.
  intros HW. unfold map_transform. destruct op as [f|x|x].
  - destruct (m_transform_g rdef rd st f P 0 0 m HW) as (t & Ht & (H1 & H2 & H3) & H4). rewrite Ht. cbn [bind].
    destruct t as [r|n]; cbn [tout tu tred] in *.
    + exists m, r, Self. split; [reflexivity|]. split; [eapply mww_any; eassumption|]. split; [exact H1|]. split; [reflexivity|].
      split; [left; reflexivity|]. intros f0 [= ->] HM. apply H3. assumption.
    + exists (fst (nres_trie n)), (snd (nres_trie n)), Other. destruct (nres_trie_visit n) as [Hv Hr].
      split; [destruct (nres_trie n); reflexivity|]. split; [apply nres_trie_w; assumption|].
      split; [rewrite Hv; exact H1|]. split; [discriminate|]. split.
      * intros HU. cbn [tcall] in *. unfold map_visit in HU. rewrite HU in H2. discriminate.
      * intros f0 [= ->] HM. rewrite Hr. apply H3. assumption.
  - assert (Ht : m_transform rdef rd st (TUnchanged x) m = Ret (TU x)) by (destruct m as [[]|[]|]; reflexivity).
    rewrite Ht. cbn [bind]. exists m, x, Self. split; [reflexivity|]. split; [eapply mww_any; eassumption|].
    repeat split; auto; [|discriminate].
    symmetry. apply t_map_all_unchanged. cbn. induction (map_visit m); auto.
  - assert (Ht : m_transform rdef rd st (TRemoved x) m = Ret (TN (NRZ x))) by (destruct m as [[]|[]|]; reflexivity).
    rewrite Ht. cbn [bind]. exists map_new, x, Other. split; [reflexivity|]. split; [apply mww_new|]. split.
    + unfold t_map. cbn. induction (map_visit m); auto.
    + split; [discriminate|]. split; [|discriminate]. intros H. right. split; [eauto|].
      destruct (map_visit m); [reflexivity|discriminate].
Qed.

Lemma map_transmute_w {S X} {KS : Key S} (op : transmute_op (K * V) S X R) (m : trie K V) : mww P m ->
  m_keeps (mcall op) (map_visit m) ->
  exists m' r, map_transmute rdef rd op m = Ret (m', r) /\ mww (fun _ => True) m' /\
    map_visit m' = m_map (mcall op) (map_visit m) /\
    (forall f, op = MGeneric f -> monoid rdef rd -> r = msum rdef rd (map (fun e => m_red (f e)) (map_visit m))).
Proof.
  intros HW HK. unfold map_transmute. destruct op as [f|x].
  - destruct (m_transmute_g rdef rd f P 0 0 m HW HK) as (n & -> & (H1 & H3) & H4). cbn [bind].
    exists (fst (nres_trie n)), (snd (nres_trie n)). destruct (nres_trie_visit n) as [Hv Hr].
    split; [destruct (nres_trie n); reflexivity|]. split; [apply nres_trie_w; assumption|].
    split; [rewrite Hv; exact H1|].
    intros f0 [= ->] HM. rewrite Hr. apply H3. assumption.
  - assert (Ht : m_transmute rdef rd (MRemoved (S := S) (X := X) x) m = Ret (NRZ x)) by (destruct m as [[]|[]|]; reflexivity).
    rewrite Ht. cbn [bind]. exists map_new, x. split; [reflexivity|]. split; [apply mww_new|]. split.
    + clear. unfold m_map. induction (map_visit m) as [|e l IH]; [reflexivity|exact IH].
    + discriminate.
Qed.

End Trans.

(** * The joint operations: where the entries of a result come from *)
Section Joint.
Context {E : Env}.

Lemma map_tt_w {K V R} {KK : Key K} (rdef : R) rd st (P P' Q : K * V -> Prop)
  (Hl : forall e v, P e -> Q (fst e, v)) (Hr : forall e v, P' e -> Q (fst e, v))
  both lop rop (m right : trie K V) m' r o : mww P m -> mww P' right ->
  map_tt rdef rd st both lop rop m right = Ret (m', r, o) -> mww Q m'.
Proof.
  intros HW HW' H. pose proof (m_tt_w rdef rd st P P' Q Hl Hr both lop rop 0 0 m right HW HW') as HH. unfold map_tt in H.
  destruct (m_tt rdef rd st both lop rop m right 0) as [t| |] eqn:Ht; try discriminate. cbn [bind] in H. specialize (HH t eq_refl).
  destruct t as [x|x|x|n]; [injection H as <- <- <-|injection H as <- <- <-|injection H as <- <- <-|].
  1-2: eapply ww_mono; [|exact HW]; intros e _; apply (inl P Q Hl).
  - eapply ww_mono; [|exact HW']; intros e _; apply (inl P' Q Hr).
  - cbn [jww] in HH. assert (He : fst (nres_trie n) = m') by (clear HH; cbv beta iota in H; destruct (nres_trie n) as [a b]; injection H as -> _ _; reflexivity). rewrite <- He.
    apply nres_trie_w. exact HH.
Qed.

Lemma map_tm_w {K V L W R} {KK : Key K} {KL : Key L} (rdef : R) rd st (P : K * V -> Prop) (P' : L * W -> Prop) (Q : K * V -> Prop)
  both lop rop (Hl : forall e v, P e -> Q (fst e, v)) (Hr : m_into P' Q rop)
  (m : trie K V) (right : trie L W) m' r o : mww P m -> mww P' right ->
  map_tm rdef rd st both lop rop m right = Ret (m', r, o) -> mww Q m'.
Proof.
  intros HW HW' H. pose proof (m_tm_w rdef rd st P P' Q both lop rop Hl Hr 0 0 m right HW HW') as HH. unfold map_tm in H.
  destruct (m_tm rdef rd st both lop rop m right 0) as [t| |] eqn:Ht; try discriminate. cbn [bind] in H. specialize (HH t eq_refl).
  destruct t as [x|n].
  - injection H as <- <- <-. eapply ww_mono; [|exact HW]; intros e _; apply (inl P Q Hl).
  - assert (He : fst (nres_trie n) = m') by (clear HH; cbv beta iota in H; destruct (nres_trie n) as [a b]; injection H as -> _ _; reflexivity). rewrite <- He. apply nres_trie_w. exact HH.
Qed.

Lemma map_mt_w {K V L W R} {KK : Key K} {KL : Key L} (rdef : R) rd st (P : K * V -> Prop) (P' : L * W -> Prop) (Q : L * W -> Prop)
  both lop rop (Hl : m_into P Q lop) (Hr : forall e v, P' e -> Q (fst e, v))
  (m : trie K V) (right : trie L W) m' r o : mww P m -> mww P' right ->
  map_mt rdef rd st both lop rop m right = Ret (m', r, o) -> mww Q m'.
Proof.
  intros HW HW' H. pose proof (m_mt_w rdef rd st P P' Q both lop rop Hl Hr 0 0 m right HW HW') as HH. unfold map_mt in H.
  destruct (m_mt rdef rd st both lop rop m right 0) as [t| |] eqn:Ht; try discriminate. cbn [bind] in H. specialize (HH t eq_refl).
  destruct t as [x|n].
  - injection H as <- <- <-. eapply ww_mono; [|exact HW']; intros e _; apply (inl P' Q Hr).
  - assert (He : fst (nres_trie n) = m') by (clear HH; cbv beta iota in H; destruct (nres_trie n) as [a b]; injection H as -> _ _; reflexivity). rewrite <- He. apply nres_trie_w. exact HH.
Qed.

Lemma map_mm_w {K V L W S X R} {KK : Key K} {KL : Key L} {KS : Key S} (rdef : R) rd (P : K * V -> Prop) (P' : L * W -> Prop) (Q : S * X -> Prop)
  both lop rop (Hb : mm_into P P' Q both) (Hl : m_into P Q lop) (Hr : m_into P' Q rop)
  (m : trie K V) (right : trie L W) m' r : mww P m -> mww P' right ->
  map_mm rdef rd both lop rop m right = Ret (m', r) -> mww Q m'.
Proof.
  intros HW HW' H. pose proof (m_mm_w rdef rd Q P P' both lop rop Hb Hl Hr 0 0 m right HW HW') as HH. unfold map_mm in H.
  destruct (m_mm rdef rd both lop rop m right 0) as [n| |] eqn:Ht; try discriminate. cbn [bind] in H. specialize (HH n eq_refl).
  assert (He : fst (nres_trie n) = m') by (clear HH; cbv beta iota in H; destruct (nres_trie n) as [a b]; injection H as -> _; reflexivity). rewrite <- He. apply nres_trie_w. exact HH.
Qed.

(** * Every built map satisfies the invariant *)
Lemma built_ww {K V} {KK : Key K} (m : trie K V) : built m -> mww (fun _ => True) m.
Proof.
  induction 1 as [K V KK|K V KK Q KQ into m q v replace m' e prev H IH Hq HI|K V KK Q KQ m q m' e H IH HI
    |K V KK R rdef rd st op m m' r o H IH HI|K V KK S X KS R rdef rd op m m' r H IH HK HI
    |K V KK L W KL R rdef rd st both lop rop m right m' r o H IH H' IH' HK HI
    |K V KK L W KL R rdef rd st both lop rop m right m' r o H IH H' IH' HK HI
    |K V KK L W KL S X KS R rdef rd both lop rop m right m' r H IH H' IH' HB HK HK' HI
    |K V KK R rdef rd st both lop rop m right m' r o H IH H' IH' HI].
  - apply mww_new.
  - pose proof (map_insert_w _ into m q v replace IH I Hq) as HH. rewrite HI in HH.
    destruct (checked && deep m (cls q)); [discriminate|].
    destruct (stack_insert (into q) v replace (sel (cls q) (map_visit m))) as [[stk p']|e'].
    + destruct HH as (m2 & HE & HW & _). injection HE as -> _ _. exact HW.
    + discriminate.
  - pose proof (map_remove_w _ m q IH) as HH. rewrite HI in HH.
    destruct (checked && deep m (cls q)); [discriminate|].
    destruct (sel (cls q) (map_visit m)) as [|e' stk]; [discriminate|].
    destruct HH as (m2 & HE & HW & _). injection HE as -> _. exact HW.
  - destruct (map_transform_w rdef rd _ st op m IH) as (m2 & r2 & o2 & HE & HW & _). rewrite HI in HE. injection HE as -> _ _. exact HW.
  - destruct (map_transmute_w rdef rd _ op m IH HK) as (m2 & r2 & HE & HW & _). rewrite HI in HE. injection HE as -> _. exact HW.
  - refine (map_tm_w rdef rd st (fun _ => True) (fun e => In e (m_visit right)) _ both lop rop _ _ m right m' r o IH (ww_self _ _ _ _ IH') HI); [auto|].
    intros e k v x He Hc. split; [exact I|]. eapply HK; eassumption.
  - refine (map_mt_w rdef rd st (fun e => In e (m_visit m)) (fun _ => True) _ both lop rop _ _ m right m' r o (ww_self _ _ _ _ IH) IH' HI); [|auto].
    intros e k v x He Hc. split; [exact I|]. eapply HK; eassumption.
  - refine (map_mm_w rdef rd (fun e => In e (m_visit m)) (fun e => In e (m_visit right)) _ both lop rop _ _ _ m right m' r (ww_self _ _ _ _ IH) (ww_self _ _ _ _ IH') HI).
    + intros e e' k v x He He' Hc Hcall. split; [exact I|]. eapply HB; eassumption.
    + intros e k v x He Hc. split; [exact I|]. eapply HK; eassumption.
    + intros e k v x He Hc. split; [exact I|]. eapply HK'; eassumption.
  - apply (map_tt_w rdef rd st (fun _ => True) (fun _ => True) _ (fun _ _ _ => I) (fun _ _ _ => I) both lop rop m right m' r o IH IH' HI).
Qed.

Lemma reachable_built {K V} {KK : Key K} (m : trie K V) : reachable m -> built m.
Proof.
  induction 1 as [K V KK|K V KK Q KQ into m q v replace m' e prev H IH Hq HI|K V KK Q KQ m q m' e H IH HI
    |K V KK R rdef rd st op m m' r o H IH HI|K V KK S X KS R rdef rd op m m' r H IH HK HI
    |K V KK L W KL R rdef rd st both lop rop m right m' r o H IH H' IH' HK HI
    |K V KK L W KL R rdef rd st both lop rop m right m' r o H IH H' IH' HK HI
    |K V KK L W KL S X KS R rdef rd both lop rop m right m' r H IH H' IH' HB HK HK' HI
    |K V KK R rdef rd st both lop rop m right m' r o H IH H' IH' HT HI].
  - apply built_new.
  - exact (built_insert _ _ _ _ _ _ _ _ _ _ _ _ _ IH Hq HI).
  - exact (built_remove _ _ _ _ _ _ _ _ _ IH HI).
  - exact (built_transform _ _ _ _ _ _ _ _ _ _ _ _ IH HI).
  - exact (built_transmute _ _ _ _ _ _ _ _ _ _ _ _ _ IH HK HI).
  - exact (built_tm _ _ _ _ _ _ _ _ _ _ _ _ _ _ _ _ _ _ IH IH' HK HI).
  - exact (built_mt _ _ _ _ _ _ _ _ _ _ _ _ _ _ _ _ _ _ IH IH' HK HI).
  - exact (built_mm _ _ _ _ _ _ _ _ _ _ _ _ _ _ _ _ _ _ _ IH IH' HB HK HK' HI).
  - exact (built_tt _ _ _ _ _ _ _ _ _ _ _ _ _ _ _ IH IH' HI).
Qed.

Lemma tt_keys_any {K V R} {KK : Key K} (rdef : R) rd st both lop rop (m right : trie K V) m' r o : built m -> built right ->
  map_tt rdef rd st both lop rop m right = Ret (m', r, o) ->
  forall x, In x (map_visit m') ->
    (exists e, In e (map_visit m) /\ fst x = fst e) \/ (exists e', In e' (map_visit right) /\ fst x = fst e').
Proof.
  intros H H' HI. apply built_ww in H. apply built_ww in H'.
  refine (ww_P _ _ _ _ (map_tt_w rdef rd st (fun e => In e (m_visit m)) (fun e => In e (m_visit right)) (fun x => (exists e, In e (map_visit m) /\ fst x = fst e) \/ (exists e', In e' (map_visit right) /\ fst x = fst e'))
    _ _ both lop rop m right m' r o (ww_self _ _ _ _ H) (ww_self _ _ _ _ H') HI)).
  - intros e v He. left. exists e. auto.
  - intros e v He. right. exists e. auto.
Qed.

Lemma tm_keys_any {K V L W R} {KK : Key K} {KL : Key L} (rdef : R) rd st both lop rop (m : trie K V) (right : trie L W) m' r o :
  built m -> built right -> m_keeps (mcall rop) (map_visit right) ->
  map_tm rdef rd st both lop rop m right = Ret (m', r, o) ->
  forall x, In x (map_visit m') ->
    (exists e, In e (map_visit m) /\ fst x = fst e) \/
    (exists e' z, In e' (map_visit right) /\ mcall rop e' = KTransmuted (fst x) (snd x) z).
Proof.
  intros H H' HK HI. apply built_ww in H. apply built_ww in H'.
  refine (ww_P _ _ _ _ (map_tm_w rdef rd st (fun e => In e (m_visit m)) (fun e => In e (m_visit right)) (fun x => (exists e, In e (map_visit m) /\ fst x = fst e) \/ (exists e' z, In e' (map_visit right) /\ mcall rop e' = KTransmuted (fst x) (snd x) z))
    both lop rop _ _ m right m' r o (ww_self _ _ _ _ H) (ww_self _ _ _ _ H') HI)).
  - intros e v He. left. exists e. auto.
  - intros e k v x He Hc. split; [right; exists e, x; auto|eapply HK; eassumption].
Qed.

Lemma mt_keys_any {K V L W R} {KK : Key K} {KL : Key L} (rdef : R) rd st both lop rop (m : trie K V) (right : trie L W) m' r o :
  built m -> built right -> m_keeps (mcall lop) (map_visit m) ->
  map_mt rdef rd st both lop rop m right = Ret (m', r, o) ->
  forall x, In x (map_visit m') ->
    (exists e', In e' (map_visit right) /\ fst x = fst e') \/
    (exists e z, In e (map_visit m) /\ mcall lop e = KTransmuted (fst x) (snd x) z).
Proof.
  intros H H' HK HI. apply built_ww in H. apply built_ww in H'.
  refine (ww_P _ _ _ _ (map_mt_w rdef rd st (fun e => In e (m_visit m)) (fun e => In e (m_visit right)) (fun x => (exists e', In e' (map_visit right) /\ fst x = fst e') \/ (exists e z, In e (map_visit m) /\ mcall lop e = KTransmuted (fst x) (snd x) z))
    both lop rop _ _ m right m' r o (ww_self _ _ _ _ H) (ww_self _ _ _ _ H') HI)).
  - intros e k v x He Hc. split; [right; exists e, x; auto|eapply HK; eassumption].
  - intros e v He. left. exists e. auto.
Qed.

Lemma mm_entries_any {K V L W S X R} {KK : Key K} {KL : Key L} {KS : Key S} (rdef : R) rd both lop rop (m : trie K V) (right : trie L W)
  (m' : trie S X) r :
  built m -> built right -> b_keeps (mcall both) (map_visit m) (map_visit right) -> m_keeps (mcall lop) (map_visit m) ->
  m_keeps (mcall rop) (map_visit right) ->
  map_mm rdef rd both lop rop m right = Ret (m', r) ->
  forall x, In x (map_visit m') ->
    (exists e e' z, In e (map_visit m) /\ In e' (map_visit right) /\ cls (fst e) = cls (fst e') /\ mcall both (e, e') = KTransmuted (fst x) (snd x) z) \/
    (exists e z, In e (map_visit m) /\ mcall lop e = KTransmuted (fst x) (snd x) z) \/
    (exists e' z, In e' (map_visit right) /\ mcall rop e' = KTransmuted (fst x) (snd x) z).
Proof.
  intros H H' HB HK HK' HI. apply built_ww in H. apply built_ww in H'.
  refine (ww_P _ _ _ _ (map_mm_w rdef rd (fun e => In e (m_visit m)) (fun e => In e (m_visit right)) (fun x =>
    (exists e e' z, In e (map_visit m) /\ In e' (map_visit right) /\ cls (fst e) = cls (fst e') /\ mcall both (e, e') = KTransmuted (fst x) (snd x) z) \/
    (exists e z, In e (map_visit m) /\ mcall lop e = KTransmuted (fst x) (snd x) z) \/
    (exists e' z, In e' (map_visit right) /\ mcall rop e' = KTransmuted (fst x) (snd x) z))
    both lop rop _ _ _ m right m' r (ww_self _ _ _ _ H) (ww_self _ _ _ _ H') HI)).
  - intros e e' k v x He He' Hc Hcall. split; [left; exists e, e', x; auto|eapply HB; eassumption].
  - intros e k v x He Hc. split; [right; left; exists e, x; auto|eapply HK; eassumption].
  - intros e k v x He Hc. split; [right; right; exists e, x; auto|eapply HK'; eassumption].
Qed.

End Joint.

(** * The statements of C45 *)
Section C45.
Context {E : Env} {K V : Type} {KK : Key K}.

Lemma built_size (m : trie K V) : built m -> map_size m = N.of_nat (length (map_visit m)).
Proof. intros H. apply built_ww in H. exact (map_size_w _ m H). Qed.

Lemma built_find {Q} {KQ : Key Q} (m : trie K V) (q : Q) : built m ->
  map_find m q = Ret (match sel (cls q) (map_visit m) with e :: _ => Ok e | [] => Err NotFound end).
Proof. intros H. apply built_ww in H. rewrite (map_find_w _ m q H). destruct (sel _ _); reflexivity. Qed.

Lemma built_insert_exact {Q} {KQ : Key Q} (into : Q -> K) (m : trie K V) q v replace : built m -> cls (into q) = cls q ->
  (checked = false -> exists res, map_insert into m q v replace = Ret res) /\
  (forall res, map_insert into m q v replace = Ret res ->
     match stack_insert (into q) v replace (sel (cls q) (map_visit m)) with
     | Err e => res = Err e
     | Ok (stk, prev) => exists m', res = Ok (m', (into q, v), prev) /\ built m' /\
         (forall c, sel c (map_visit m') = if ceqb c (cls q) then stk else sel c (map_visit m)) /\
         map_size m' = map_size m + match prev with Some _ => 0 | None => 1 end
     end).
Proof.
  intros H Hq. pose proof (built_ww m H) as HW.
  pose proof (map_insert_w _ into m q v replace HW I Hq) as HI.
  split.
  - intros Hc. rewrite Hc in HI. cbn [andb] in HI. destruct (stack_insert _ _ _ _) as [[stk prev]|e]; [|eauto].
    destruct HI as (m' & HI & _). eauto.
  - intros res Hres. rewrite Hres in HI. destruct (checked && deep m (cls q)); [discriminate|].
    destruct (stack_insert _ _ _ _) as [[stk prev]|e]; [|congruence].
    destruct HI as (m' & HI & _ & Hre & Hs). injection HI as ->. exists m'. split; [reflexivity|]. split; [|split; assumption].
    exact (built_insert _ _ _ _ _ _ _ _ _ _ _ _ _ H Hq Hres).
Qed.

Lemma built_remove_exact {Q} {KQ : Key Q} (m : trie K V) (q : Q) : built m ->
  (checked = false -> exists res, map_remove m q = Ret res) /\
  (forall res, map_remove m q = Ret res ->
     match sel (cls q) (map_visit m) with
     | [] => res = Err NotFound
     | e :: stk => exists m', res = Ok (m', e) /\ built m' /\
         (forall c, sel c (map_visit m') = if ceqb c (cls q) then stk else sel c (map_visit m)) /\
         map_size m' + 1 = map_size m
     end).
Proof.
  intros H. pose proof (built_ww m H) as HW. pose proof (map_remove_w _ m q HW) as HI.
  split.
  - intros Hc. rewrite Hc in HI. cbn [andb] in HI. destruct (sel _ _) as [|e stk]; [eauto|].
    destruct HI as (m' & HI & _). eauto.
  - intros res Hres. rewrite Hres in HI. destruct (checked && deep m (cls q)); [discriminate|].
    destruct (sel (cls q) (map_visit m)) as [|e stk]; [congruence|].
    destruct HI as (m' & HI & _ & Hre & Hs). injection HI as ->. exists m'. split; [reflexivity|]. split; [|split; assumption].
    exact (built_remove _ _ _ _ _ _ _ _ _ H Hres).
Qed.

Context {R : Type} (rdef : R) (rd : R -> R -> R).

Lemma built_transform_exact st (op : transform_op (K * V) V R) (m : trie K V) : built m ->
  exists m' r o, map_transform rdef rd st op m = Ret (m', r, o) /\ built m' /\
    map_visit m' = flat_map (fun e => t_entry (tcall op e) e) (map_visit m) /\
    (forall f, op = TGeneric f -> monoid rdef rd -> r = fold_right rd rdef (map (fun e => t_red (f e)) (map_visit m))).
Proof.
  intros H. pose proof (built_ww m H) as HW. destruct (map_transform_w rdef rd _ st op m HW) as (m' & r & o & HI & _ & Hv & _ & _ & Hr).
  exists m', r, o. split; [assumption|]. split; [exact (built_transform _ _ _ _ _ _ _ _ _ _ _ _ H HI)|]. split; assumption.
Qed.

Lemma built_transmute_exact {S X} {KS : Key S} (op : transmute_op (K * V) S X R) (m : trie K V) : built m ->
  (forall e k v r, In e (map_visit m) -> mcall op e = KTransmuted k v r -> cls k = cls (fst e)) ->
  exists m' r, map_transmute rdef rd op m = Ret (m', r) /\ built m' /\
    map_visit m' = flat_map (fun e => m_entry (mcall op e)) (map_visit m) /\
    (forall f, op = MGeneric f -> monoid rdef rd -> r = fold_right rd rdef (map (fun e => m_red (f e)) (map_visit m))).
Proof.
  intros H HK. pose proof (built_ww m H) as HW. destruct (map_transmute_w rdef rd _ op m HW HK) as (m' & r & HI & _ & Hv & Hr).
  exists m', r. split; [assumption|]. split; [exact (built_transmute _ _ _ _ _ _ _ _ _ _ _ _ _ H HK HI)|]. split; assumption.
Qed.

End C45.
