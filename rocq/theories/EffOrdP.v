(** The order of the calls. *)
From Coq Require Import NArith Arith List Bool Lia Permutation.
From Verif Require Import Base Words Flag Bia BiaP Node Spec SpecP Inv Api ApiP Trans Transform JoinP LoopP TransformP Eff EffT EffP EffTP EffApi.
Import ListNotations.
Open Scope N_scope.

Section Order.
Context {E : Env} {K V : Type} {KK : Key K}.

Lemma runs_back_app (l1 l2 acc : list (K * V)) :
  (forall a b, In a (acc ++ l1) -> In b l2 -> hash (ecls a) <> hash (ecls b)) ->
  runs_back acc (l1 ++ l2) = runs_back acc l1 ++ backwards l2.
Proof.
  revert acc. induction l1 as [|e l1 IH]; intros acc H.
  - cbn [app runs_back]. destruct l2 as [|b l2]; [cbn; rewrite app_nil_r; destruct acc; reflexivity|].
    destruct acc as [|a acc]; [reflexivity|]. cbn [runs_back].
    destruct (N.eqb_spec (hash (ecls a)) (hash (ecls b))) as [Hh|Hh]; [|reflexivity].
    exfalso. apply (H a b); [left; reflexivity|left; reflexivity|assumption].
  - cbn [app runs_back].
    assert (Hin : forall a b, In a ([e] ++ l1) -> In b l2 -> hash (ecls a) <> hash (ecls b)).
    { intros a b Ha. apply H. apply in_or_app. right. exact Ha. }
    destruct acc as [|a acc]; [apply IH; assumption|].
    destruct (hash (ecls a) =? hash (ecls e)).
    + apply IH. intros x b Hx. apply H. cbn in Hx |- *. rewrite in_app_iff in *. cbn. tauto.
    + rewrite IH by assumption. apply app_assoc.
Qed.

Lemma runs_back_same h (l acc : list (K * V)) : (forall a, In a (acc ++ l) -> hash (ecls a) = h) -> runs_back acc l = rev l ++ acc.
Proof.
  revert acc. induction l as [|e l IH]; intros acc H; [reflexivity|]. cbn [runs_back rev]. rewrite <- app_assoc. cbn [app].
  assert (Hin : forall a, In a ((e :: acc) ++ l) -> hash (ecls a) = h).
  { intros a [<-|Ha]; [apply H; apply in_or_app; right; left; reflexivity|]. apply H. apply in_app_or in Ha. apply in_or_app. cbn. tauto. }
  destruct acc as [|a acc].
  - apply (IH [e]). exact Hin.
  - rewrite (H a) by (left; reflexivity). rewrite (H e) by (apply in_or_app; right; left; reflexivity). rewrite N.eqb_refl. apply IH. exact Hin.
Qed.

Lemma backwards_slots (g : N -> list (K * V)) (idx : list N) : NoDup idx ->
  (forall i j a b, i <> j -> In a (g i) -> In b (g j) -> hash (ecls a) <> hash (ecls b)) ->
  backwards (flat_map g idx) = flat_map (fun i => backwards (g i)) idx.
Proof.
  intros HN H. induction idx as [|i idx IH]; [reflexivity|]. cbn [flat_map]. inversion HN as [|? ? Hi HN']; subst.
  unfold backwards at 1. rewrite runs_back_app; [rewrite IH by assumption; reflexivity|].
  intros a b Ha Hb. cbn in Ha. apply in_flat_map in Hb. destruct Hb as (j & Hj & Hb). apply (H i j a b); auto. intros ->. contradiction.
Qed.

Lemma backwards_C d p bits (values : list (mnode K V)) x : wf d p (MC (BIA bits values x)) ->
  backwards (m_visit (MC (BIA bits values x))) = flat_map (fun i => backwards (ovisit (getv bits values i))) (range 0 (max_ones fw)).
Proof.
  intros HW. destruct (wf_C_inv _ _ _ _ _ HW) as [Hok Hch]. rewrite (visit_C _ _ _ _ Hok). apply backwards_slots; [apply range_nodup|].
  intros i j a b Hij Ha Hb Hh.
  destruct (getv bits values i) as [c|] eqn:Hi; [|destruct Ha]. destruct (getv bits values j) as [c'|] eqn:Hj; [|destruct Hb].
  apply Hij. rewrite <- (wf_C_idx _ _ _ _ _ _ _ _ HW Hi Ha), <- (wf_C_idx _ _ _ _ _ _ _ _ HW Hj Hb), Hh. reflexivity.
Qed.

End Order.

Section Follows.
Context {Q : Type} {A : Q -> Type}.

Lemma follows_lift {X} (o : outcome X) : follows (A := A) [] (lift o).
Proof. intros tr o' He. apply exec_lift in He. destruct He as [-> _]. exists []. auto. Qed.
Lemma follows_then {X Y} l (p : prog A X) (k : X -> prog A Y) : follows l p -> (forall x, follows [] (k x)) -> follows l (pbind p k).
Proof. intros H1 H2. rewrite <- (app_nil_r l). apply follows_bind; assumption. Qed.
Lemma follows_ask (q : Q) : follows [q] (ask (A := A) q).
Proof. intros tr o [(a & t & -> & -> & ->)|[-> ->]]; exists []; auto. Qed.

Context {E : Env} {K V R : Type} (rdef : R) (rd : R -> R -> R).
Lemma follows_loop (step : acc K V R -> N -> prog A (acc K V R)) (g : N -> list Q) l :
  (forall a i, In i l -> follows (g i) (step a i)) -> forall a, follows (flat_map g l) (eloop step l a).
Proof.
  induction l as [|i l IH]; intros H a; cbn [eloop flat_map]; [apply follows_ret|].
  apply follows_bind; [apply H; left; reflexivity|]. intros a'. apply IH. auto with datatypes.
Qed.

Lemma follows_run_loop st (step : acc K V R -> N -> prog A (acc K V R)) (g : N -> list Q) :
  (forall a i, i < max_ones fw -> follows (g i) (step a i)) ->
  follows (flat_map g (range 0 (max_ones fw))) (erun_loop rdef rd st step).
Proof.
  intros H. destruct st; cbn [erun_loop].
  - apply follows_loop. intros a i Hi. apply H. apply range_in in Hi. lia.
  - unfold ehalves. rewrite <- (EffP.range_split rdef rd (max_ones fw / 2)) by (apply N.div_le_upper_bound; lia).
    rewrite flat_map_app. apply follows_bind.
    { apply follows_loop. intros a i Hi. apply H. apply range_in in Hi. pose proof (N.div_le_upper_bound (max_ones fw) 2 (max_ones fw)). lia. }
    intros l. apply follows_then.
    { apply follows_loop. intros a i Hi. apply H. apply range_in in Hi. lia. }
    intros r. apply follows_lift.
Qed.
End Follows.

Lemma map_flat {A B C} (f : B -> C) (g : A -> list B) l : map f (flat_map g l) = flat_map (fun x => map f (g x)) l.
Proof. induction l as [|x l IH]; [reflexivity|]. cbn [flat_map]. rewrite map_app, IH. reflexivity. Qed.

(** The closure [g] makes the one call [c e] for the entry [e]. *)
Section Transform.
Context {Q : Type} {A : Q -> Type} {E : Env} {K V R : Type} {KK : Key K} (rdef : R) (rd : R -> R -> R).
Context (c : K * V -> Q) (g : K * V -> prog A (vres V R)) (Hg : forall e, follows [c e] (g e)).

Lemma el_transform_follows l : follows (map c (rev (l_visit l))) (el_transform rd (EGeneric g) l).
Proof.
  induction l as [k v n IH z|k v s z]; cbn [el_transform l_visit rev]; rewrite map_app; (apply follows_bind; [|intros t; apply follows_then; [exact (Hg _)|intros o; apply follows_ret]]).
  - exact IH.
  - apply follows_then; [exact (Hg _)|]. intros o. apply follows_ret.
Qed.

Lemma em_transform_follows st d p n : wf d p n -> follows (map c (backwards (m_visit n))) (em_transform rdef rd st (EGeneric g) n).
Proof.
  intros HW. induction HW as [d p s Hs|d p l h HL Hl|d p bits values x Ho Hp Hok Hne Hx Hch IH].
  - cbn [em_transform m_visit]. apply follows_then; [exact (Hg _)|]. intros o. apply follows_ret.
  - cbn [em_transform m_visit]. destruct HL as (_ & _ & Hh). unfold backwards. rewrite (runs_back_same h) by exact Hh.
    rewrite app_nil_r. apply el_transform_follows.
  - rewrite (backwards_C (V := V) d p) by (econstructor; eassumption). cbn [em_transform]. rewrite map_flat.
    apply follows_then; [|intros a; apply follows_lift]. apply follows_run_loop. intros a i Hi. unfold ec_transform_step.
    rewrite bat_bit_index_slot by assumption. cbn [lift pbind].
    destruct (getv bits values i) as [y|] eqn:Hc; cbn [ovisit]; [|apply follows_ret].
    apply follows_then; [apply (IH i y Hc)|]. intros t. apply follows_lift.
Qed.

Lemma emap_transform_follows st (m : trie K V) : mwf m -> follows (map c (backwards (map_visit m))) (emap_transform rdef rd st (EGeneric g) m).
Proof. intros HW. apply follows_then; [eapply em_transform_follows; exact HW|]. intros x. apply follows_ret. Qed.

End Transform.

Section Transmute.
Context {Q : Type} {A : Q -> Type} {E : Env} {K V S X R : Type} {KK : Key K} (rdef : R) (rd : R -> R -> R).
Context (c : K * V -> Q) (g : K * V -> prog A (kres S X R)) (Hg : forall e, follows [c e] (g e)).

Lemma el_transmute_follows l : follows (map c (rev (l_visit l))) (el_transmute rd (EMGeneric g) l).
Proof.
  induction l as [k v n IH z|k v s z]; cbn [el_transmute l_visit rev]; rewrite map_app; (apply follows_bind; [|intros t; apply follows_then; [exact (Hg _)|intros o; apply follows_ret]]).
  - exact IH.
  - apply follows_then; [exact (Hg _)|]. intros o. apply follows_ret.
Qed.

Lemma em_transmute_follows d p n : wf d p n -> follows (map c (backwards (m_visit n))) (em_transmute rdef rd (EMGeneric g) n).
Proof.
  intros HW. induction HW as [d p s Hs|d p l h HL Hl|d p bits values x Ho Hp Hok Hne Hx Hch IH].
  - cbn [em_transmute m_visit]. apply follows_then; [exact (Hg _)|]. intros o. apply follows_ret.
  - cbn [em_transmute m_visit]. destruct HL as (_ & _ & Hh). unfold backwards. rewrite (runs_back_same h) by exact Hh.
    rewrite app_nil_r. apply el_transmute_follows.
  - rewrite (backwards_C (V := V) d p) by (econstructor; eassumption). cbn [em_transmute]. rewrite map_flat.
    apply follows_then; [|intros a; apply follows_lift]. apply follows_loop. intros a i Hi. apply range_in in Hi. unfold ec_transmute_step.
    rewrite bat_bit_index_slot by (assumption || lia). cbn [lift pbind].
    destruct (getv bits values i) as [y|] eqn:Hc; cbn [ovisit]; [|apply follows_ret].
    apply follows_then; [apply (IH i y Hc)|]. intros t. apply follows_lift.
Qed.

Lemma emap_transmute_follows (m : trie K V) : mwf m -> follows (map c (backwards (map_visit m))) (emap_transmute rdef rd (EMGeneric g) m).
Proof. intros HW. apply follows_then; [eapply em_transmute_follows; exact HW|]. intros x. apply follows_ret. Qed.

End Transmute.
