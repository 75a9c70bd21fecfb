(** The maps: calls and results of operations with any closures. *)
From Coq Require Import NArith Arith List Bool Lia Permutation.
From Verif Require Import Base Words Flag Bia Node Spec SpecP Inv Api ApiP Trans Transform Joint JointT SpecJ JoinP Reach ReachP
  MapP Eff EffT EffJ EffP EffTP EffJRun EffJP EffApi.
Import ListNotations.
Open Scope N_scope.

(** * Ways *)
Section Ways.
Context {Q : Type} {A : Q -> Type}.

Lemma ask_spends (q : Q) : spends [q] (ask (A := A) q).
Proof. apply spends_ask. intros a. apply spends_ret. Qed.
Lemma ask_run f (q : Q) : run f (ask (A := A) q) = Ret (f q).
Proof. reflexivity. Qed.

Lemma tw_cost {I V R} (w : tway R) (g : I -> prog A (vres V R)) (c : I -> Q) : (forall i, spends [c i] (g i)) ->
  tcost (fun i => tw_calls w (c i)) (tw_op w g).
Proof. intros H. destruct w; cbn; auto. Qed.
Lemma mw_cost {I S X R} (w : mway R) (g : I -> prog A (kres S X R)) (c : I -> Q) : (forall i, spends [c i] (g i)) ->
  mcost (fun i => mw_calls w (c i)) (mw_op w g).
Proof. intros H. destruct w; cbn; auto. Qed.
Lemma jw_cost {I V R} (w : jway R) (g : I -> I -> prog A (bres V R)) (c : I -> I -> Q) : (forall i j, spends [c i j] (g i j)) ->
  jcost (fun i j => jw_calls w (c i j)) (jw_op w g).
Proof. intros H. destruct w; cbn; auto. Qed.

Lemma tw_same {I V R} f (w : tway R) (g : I -> prog A (vres V R)) h : (forall i, run f (g i) = Ret (h i)) -> tsame f (tw_op w g) (tw_fun w h).
Proof. intros H. destruct w; cbn; auto. Qed.
Lemma mw_same {I S X R} f (w : mway R) (g : I -> prog A (kres S X R)) h : (forall i, run f (g i) = Ret (h i)) -> msame f (mw_op w g) (mw_fun w h).
Proof. intros H. destruct w; cbn; auto. Qed.
Lemma jw_same {I V R} f (w : jway R) (g : I -> I -> prog A (bres V R)) h : (forall i j, run f (g i j) = Ret (h i j)) -> jsame f (jw_op w g) (jw_fun w h).
Proof. intros H. destruct w; cbn; auto. Qed.

Lemma nodup_prefix {C} (a b : list C) : NoDup (a ++ b) -> NoDup a.
Proof.
  induction a as [|x a IH]; cbn; intros H; [constructor|]. inversion H as [|? ? Hx HN]; subst. constructor; [|auto].
  intros Hi. apply Hx. apply in_or_app. left. assumption.
Qed.

Lemma spends_makes {X} l (p : prog A X) tr o : spends l p -> exec p tr o -> makes l tr o.
Proof. intros H He. exact (H tr o He). Qed.

Lemma makes_nodup {X C} (k : Q -> C) l tr (o : outcome X) : NoDup (map k l) -> makes (A := A) l tr o -> NoDup (map k (calls tr)).
Proof.
  intros HN (rest & HP & _). apply (Permutation_map k) in HP. apply Permutation_sym in HP.
  apply (Permutation_NoDup HP) in HN. rewrite map_app in HN. exact (nodup_prefix _ _ HN).
Qed.

Lemma unbroken_or (tr : list (event (A := A))) : unbroken tr \/ exists q, In (broke q) tr.
Proof.
  induction tr as [|[q [a|]] tr IH].
  - left. intros q [].
  - destruct IH as [IH|[q' IH]]; [left|right; exists q'; right; assumption].
    intros q' [H|H]; [|exact (IH q' H)]. apply (f_equal (fun e : event (A := A) => match projT2 e with Some _ => true | None => false end)) in H. discriminate.
  - right. exists q. left. reflexivity.
Qed.

Lemma exec_stops {X} (p : prog A X) : forall tr o, exec p tr o -> (exists q, In (broke q) tr) ->
  exists tr' q, tr = tr' ++ [broke q] /\ unbroken tr' /\ o = Panic.
Proof.
  induction p as [x| | |q k IH]; intros tr o He Hb; cbn [exec] in He.
  1-3: destruct He as [-> _]; destruct Hb as [? []].
  destruct He as [(a & tr' & -> & He)|[-> ->]].
  - destruct Hb as (q' & [H|Hb]).
    { apply (f_equal (fun e : event (A := A) => match projT2 e with Some _ => true | None => false end)) in H. discriminate. }
    destruct (IH a tr' o He (ex_intro _ q' Hb)) as (tr2 & q2 & -> & HU & ->). exists (answer q a :: tr2), q2. split; [reflexivity|]. split; [|reflexivity].
    intros q3 [H|H]; [|exact (HU q3 H)]. apply (f_equal (fun e : event (A := A) => match projT2 e with Some _ => true | None => false end)) in H. discriminate.
  - exists [], q. split; [reflexivity|]. split; [intros ? []|reflexivity].
Qed.

(** ** A function that answers as recorded *)
Context {C : Type} (k : Q -> C) (ceq : forall a b : C, {a = b} + {a <> b}).
(** [look q e]: the answer of the event if it answers [q]. *)
Context (look : forall q, event (A := A) -> option (A q)) (dflt : forall q, A q).
Context (look_same : forall q a, look q (answer q a) = Some a)
  (look_other : forall q e, k (asked e) <> k q -> look q e = None).

Fixpoint recorded (tr : list event) (q : Q) : A q :=
  match tr with
  | [] => dflt q
  | e :: tr => match look q e with Some a => a | None => recorded tr q end
  end.

Lemma recorded_from tr q : recorded tr q = dflt q \/ exists e, In e tr /\ look q e = Some (recorded tr q).
Proof.
  induction tr as [|e tr IH]; [left; reflexivity|]. cbn [recorded]. destruct (look q e) as [a|] eqn:He.
  - right. exists e. split; [left; reflexivity|assumption].
  - destruct IH as [IH|(e' & Hi & IH)]; [left; assumption|]. right. exists e'. split; [right; assumption|assumption].
Qed.

Lemma recorded_agrees tr : unbroken tr -> NoDup (map k (calls tr)) -> Forall (agrees (recorded tr)) tr.
Proof.
  intros HB HN.
  assert (H : forall l1 l2, tr = l1 ++ l2 -> NoDup (map k (calls (l1 ++ l2))) -> Forall (agrees (recorded tr)) l2 /\
    forall e, In e l2 -> forall q, k (asked e) = k q -> recorded (l1 ++ l2) q = recorded l2 q).
  2:{ destruct (H [] tr eq_refl HN) as [H1 _]. exact H1. }
  intros l1 l2. revert l1. induction l2 as [|e l2 IH]; intros l1 Htr HN'.
  - split; [constructor|]. intros e [].
  - assert (Happ : l1 ++ e :: l2 = (l1 ++ [e]) ++ l2) by (rewrite <- app_assoc; reflexivity).
    assert (HIH := IH (l1 ++ [e])). rewrite <- Happ in HIH. destruct (HIH Htr HN') as [IH1 IH2].
    assert (Hskip : forall q, (forall x, In x l1 -> k (asked x) <> k q) -> recorded (l1 ++ e :: l2) q = recorded (e :: l2) q).
    { intros q Hq. clear -Hq look_other. induction l1 as [|x l1 IHl]; [reflexivity|]. cbn [app recorded].
      rewrite look_other by (apply Hq; left; reflexivity). apply IHl. intros y Hy. apply Hq. right. assumption. }
    assert (Hfresh : forall x y, In x l1 -> In y (e :: l2) -> k (asked x) <> k (asked y)).
    { intros x y Hx Hy Hk. unfold calls in HN'. rewrite !map_app in HN'. apply in_split in Hx. destruct Hx as (a & b & ->).
      rewrite !map_app, <- app_assoc in HN'. cbn [map app] in HN'. apply NoDup_remove_2 in HN'. apply HN'.
      rewrite Hk. apply in_or_app. right. apply in_or_app. right. apply (in_map (fun z => k (asked z))) in Hy. rewrite map_map. exact Hy. }
    split.
    + constructor; [|assumption]. destruct e as [q [a|]].
      * unfold agrees. cbn [projT1 projT2]. rewrite Htr, Hskip.
        { cbn [recorded]. change (existT _ q (Some a)) with (answer q a). rewrite look_same. reflexivity. }
        { intros x Hx. apply (Hfresh x _ Hx (or_introl eq_refl)). }
      * exfalso. apply (HB q). rewrite Htr. apply in_or_app. right. left. reflexivity.
    + intros x Hx q Hq. apply Hskip. intros y Hy. rewrite <- Hq. apply Hfresh; assumption.
Qed.

End Ways.

(** ** One closure *)
Section One.
Context {E : Env} {K V T : Type} {KK : Key K}.

Definition look_one (q : K * V) (e : event (A := fun _ : K * V => T)) : option T :=
  if ceqb (ecls (asked e)) (ecls q) then projT2 e else None.

Lemma recorded_one (d : T) (tr : list (event (A := fun _ : K * V => T))) : unbroken tr -> NoDup (map ecls (calls tr)) ->
  exists f : K * V -> T, Forall (agrees f) tr /\ forall q, f q = d \/ exists q', ecls q' = ecls q /\ In (answer q' (f q)) tr.
Proof.
  intros HB HN. exists (recorded look_one (fun _ => d) tr). split.
  - apply (recorded_agrees ecls); try assumption.
    + intros q a. unfold look_one. cbn. rewrite ceqb_refl. reflexivity.
    + intros q e He. unfold look_one. destruct (ceqb_spec (ecls (asked e)) (ecls q)); [contradiction|reflexivity].
  - intros q. destruct (recorded_from look_one (fun _ => d) tr q) as [H|(e & He & H)]; [left; assumption|]. right.
    exists (asked e). unfold look_one at 1 in H. destruct (ceqb_spec (ecls (asked e)) (ecls q)) as [Hc|Hc]; [|discriminate].
    split; [assumption|]. unfold answer. rewrite <- H. destruct e as [q' o]. exact He.
Qed.

End One.

(** ** Three closures *)
Section Three.
Context {E : Env} {K V L W TB TL TR : Type} {KK : Key K} {KL : Key L}.

(** The class of key a call is about. *)
Definition about (q : jcalls (K * V) (L * W)) : C :=
  match q with AskBoth e _ => ecls e | AskLeft e => ecls e | AskRight e' => ecls e' end.

Definition look_three (q : jcalls (K * V) (L * W)) (e : event (A := jans TB TL TR)) : option (jans TB TL TR q) :=
  if ceqb (about (asked e)) (about q) then
    match q return option (jans TB TL TR q) with
    | AskBoth _ _ => match e with existT _ (AskBoth _ _) o => o | _ => None end
    | AskLeft _ => match e with existT _ (AskLeft _) o => o | _ => None end
    | AskRight _ => match e with existT _ (AskRight _) o => o | _ => None end
    end
  else None.

Lemma recorded_three (db : TB) (dl : TL) (dr : TR) (tr : list (event (A := jans TB TL TR))) : unbroken tr -> NoDup (map about (calls tr)) ->
  exists f : forall q : jcalls (K * V) (L * W), jans TB TL TR q, Forall (agrees f) tr.
Proof.
  intros HB HN.
  exists (recorded look_three (fun q => match q return jans TB TL TR q with AskBoth _ _ => db | AskLeft _ => dl | AskRight _ => dr end) tr).
  apply (recorded_agrees about); try assumption.
  - intros q a. unfold look_three. cbn [asked answer projT1]. rewrite ceqb_refl. destruct q; reflexivity.
  - intros q e He. unfold look_three. destruct (ceqb_spec (about (asked e)) (about q)); [contradiction|reflexivity].
Qed.

(** Each class is asked about once. *)
Lemma merge_about (B Lk Rk : jcalls (K * V) (L * W) -> list (jcalls (K * V) (L * W))) ln lr :
  (forall q, B q = [] \/ B q = [q]) -> (forall q, Lk q = [] \/ Lk q = [q]) -> (forall q, Rk q = [] \/ Rk q = [q]) ->
  uniq ln -> uniq lr ->
  NoDup (map about (merge (fun e e' => B (AskBoth e e')) (fun e => Lk (AskLeft e)) (fun e' => Rk (AskRight e')) ln lr)).
Proof.
  intros HB HL HR Hl Hr.
  set (KS := about : Key (jcalls (K * V) (L * W))).
  set (p := fun q : jcalls (K * V) (L * W) => (q, tt)).
  pose proof (merge_uniq (KS := KS) (fun e e' => map p (B (AskBoth e e'))) (fun e => map p (Lk (AskLeft e))) (fun e' => map p (Rk (AskRight e'))) ln lr Hl Hr) as H.
  assert (Hmap : merge (fun e e' => map p (B (AskBoth e e'))) (fun e => map p (Lk (AskLeft e))) (fun e' => map p (Rk (AskRight e'))) ln lr =
    map p (merge (fun e e' => B (AskBoth e e')) (fun e => Lk (AskLeft e)) (fun e' => Rk (AskRight e')) ln lr)).
  { unfold merge. rewrite map_app. f_equal.
    - clear. induction ln as [|e l IH]; cbn; [reflexivity|]. rewrite map_app, IH. destruct (lookup _ _); reflexivity.
    - generalize (filter (unmatched ln) lr). induction l as [|e l IH]; cbn; [reflexivity|]. rewrite map_app, IH. reflexivity. }
  rewrite Hmap in H. unfold uniq in H. rewrite map_map in H. apply H. clear H Hmap.
  intros c. unfold made. destruct (lookup c ln) as [e|] eqn:He; destruct (lookup c lr) as [e'|] eqn:He'.
  - apply lookup_in in He. destruct He as [_ He]. destruct (HB (AskBoth e e')) as [->| ->]; [left; reflexivity|right]. eexists. split; [reflexivity|]. exact He.
  - apply lookup_in in He. destruct He as [_ He]. destruct (HL (AskLeft e)) as [->| ->]; [left; reflexivity|right]. eexists. split; [reflexivity|]. exact He.
  - apply lookup_in in He'. destruct He' as [_ He']. destruct (HR (AskRight e')) as [->| ->]; [left; reflexivity|right]. eexists. split; [reflexivity|]. exact He'.
  - left. reflexivity.
Qed.

End Three.

Lemma tw_calls_small {Q R} (w : tway R) (q : Q) : tw_calls w q = [] \/ tw_calls w q = [q].
Proof. destruct w; auto. Qed.
Lemma mw_calls_small {Q R} (w : mway R) (q : Q) : mw_calls w q = [] \/ mw_calls w q = [q].
Proof. destruct w; auto. Qed.
Lemma jw_calls_small {Q R} (w : jway R) (q : Q) : jw_calls w q = [] \/ jw_calls w q = [q].
Proof. destruct w; auto. Qed.

(** * transform, transmute, visit *)
Section OneMap.
Context {E : Env} {K V R : Type} {KK : Key K} (rdef : R) (rd : R -> R -> R).

Lemma flat_tw {Q} (w : tway R) (l : list Q) : flat_map (tw_calls w) l = match w with TwClosure => l | _ => [] end.
Proof. destruct w; induction l as [|q l IH]; cbn in *; try rewrite IH; reflexivity. Qed.
Lemma flat_mw {Q} (w : mway R) (l : list Q) : flat_map (mw_calls w) l = match w with MwClosure => l | _ => [] end.
Proof. destruct w; induction l as [|q l IH]; cbn in *; try rewrite IH; reflexivity. Qed.

Lemma transform_makes st (w : tway R) (m : trie K V) tr o : reachable m ->
  exec (emap_transform rdef rd st (tw_op w ask) m) tr o -> makes (match w with TwClosure => map_visit m | _ => [] end) tr o.
Proof.
  intros HR. rewrite <- flat_tw. apply spends_makes. eapply emap_transform_spends; [|exact (reachable_mwf _ HR)].
  exact (tw_cost w ask (fun q => q) ask_spends).
Qed.
Lemma transmute_makes {S X} (w : mway R) (m : trie K V) tr o : reachable m ->
  exec (emap_transmute (S := S) (X := X) rdef rd (mw_op w ask) m) tr o -> makes (match w with MwClosure => map_visit m | _ => [] end) tr o.
Proof.
  intros HR. rewrite <- flat_mw. apply spends_makes. eapply emap_transmute_spends; [|exact (reachable_mwf _ HR)].
  exact (mw_cost w ask (fun q => q) ask_spends).
Qed.

Lemma transform_as st (w : tway R) (m : trie K V) tr o f :
  exec (emap_transform rdef rd st (tw_op w ask) m) tr o -> Forall (agrees f) tr -> o = map_transform rdef rd st (tw_fun w f) m.
Proof. intros He Hf. rewrite (exec_run f _ _ _ He Hf). apply emap_transform_run. apply tw_same. reflexivity. Qed.
Lemma transmute_as {S X} (w : mway R) (m : trie K V) tr o f :
  exec (emap_transmute (S := S) (X := X) rdef rd (mw_op w ask) m) tr o -> Forall (agrees f) tr -> o = map_transmute rdef rd (mw_fun w f) m.
Proof. intros He Hf. rewrite (exec_run f _ _ _ He Hf). apply emap_transmute_run. apply mw_same. reflexivity. Qed.

Lemma transform_once st (w : tway R) (m : trie K V) tr o : reachable m ->
  exec (emap_transform rdef rd st (tw_op w ask) m) tr o -> NoDup (map ecls (calls tr)).
Proof.
  intros HR He. eapply makes_nodup; [|eapply transform_makes; eassumption].
  destruct w; [apply mwf_uniq; apply reachable_mwf; assumption|constructor..].
Qed.
Lemma transmute_once {S X} (w : mway R) (m : trie K V) tr o : reachable m ->
  exec (emap_transmute (S := S) (X := X) rdef rd (mw_op w ask) m) tr o -> NoDup (map ecls (calls tr)).
Proof.
  intros HR He. eapply makes_nodup; [|eapply transmute_makes; eassumption].
  destruct w; [apply mwf_uniq; apply reachable_mwf; assumption|constructor..].
Qed.

Lemma transform_answers st (w : tway R) (m : trie K V) tr o : reachable m ->
  exec (emap_transform rdef rd st (tw_op w ask) m) tr o -> unbroken tr ->
  exists f, Forall (agrees f) tr /\ o = map_transform rdef rd st (tw_fun w f) m.
Proof.
  intros HR He HB. destruct (recorded_one (VDropped rdef) tr HB (transform_once _ _ _ _ _ HR He)) as [f [Hf _]].
  exists f. split; [assumption|]. eapply transform_as; eassumption.
Qed.
Lemma transmute_answers {S X} (w : mway R) (m : trie K V) tr o : reachable m ->
  exec (emap_transmute (S := S) (X := X) rdef rd (mw_op w ask) m) tr o -> unbroken tr ->
  exists f, Forall (agrees f) tr /\ o = map_transmute rdef rd (mw_fun w f) m.
Proof.
  intros HR He HB. destruct (recorded_one (KDropped rdef) tr HB (transmute_once _ _ _ _ HR He)) as [f [Hf _]].
  exists f. split; [assumption|]. eapply transmute_as; eassumption.
Qed.

Lemma transform_execs st (w : tway R) (m : trie K V) f :
  exists tr, exec (emap_transform rdef rd st (tw_op w ask) m) tr (map_transform rdef rd st (tw_fun w f) m) /\ Forall (agrees f) tr.
Proof.
  destruct (run_exec f (emap_transform rdef rd st (tw_op w ask) m)) as (tr & H1 & H2). exists tr. split; [|assumption].
  rewrite (emap_transform_run rdef rd f _ (tw_fun w f)) in H1; [exact H1|]. apply tw_same. reflexivity.
Qed.
Lemma transmute_execs {S X} (w : mway R) (m : trie K V) f :
  exists tr, exec (emap_transmute (S := S) (X := X) rdef rd (mw_op w ask) m) tr (map_transmute rdef rd (mw_fun w f) m) /\ Forall (agrees f) tr.
Proof.
  destruct (run_exec f (emap_transmute (S := S) (X := X) rdef rd (mw_op w ask) m)) as (tr & H1 & H2). exists tr. split; [|assumption].
  rewrite (emap_transmute_run rdef rd f _ (mw_fun w f)) in H1; [exact H1|]. apply mw_same. reflexivity.
Qed.

Lemma visit_makes (m : trie K V) tr o : exec (emap_visit (A := fun _ : K * V => unit) ask m) tr o ->
  exists rest, calls tr ++ rest = map_visit m /\ forall x, o = Ret x -> rest = [].
Proof.
  intros He. assert (H := em_visit_follows (A := fun _ : K * V => unit) (fun e => [e]) ask). specialize (H ltac:(intros e t o' [(a & t' & -> & -> & ->)|[-> ->]]; exists []; auto)).
  replace (map_visit m) with (flat_map (fun e => [e]) (m_visit m)); [exact (H m tr o He)|].
  unfold map_visit. induction (m_visit m); cbn; congruence.
Qed.

End OneMap.

Section JAsks.
Context {I J TB TL TR : Type}.
Lemma ask_both_spends (p : I * J) : spends [AskBoth (fst p) (snd p)] (ask_both (TB := TB) (TL := TL) (TR := TR) p).
Proof. exact (spends_ask (A := jans TB TL TR) (AskBoth (fst p) (snd p)) PRet (fun a => spends_ret a)). Qed.
Lemma ask_left_spends (e : I) : spends [AskLeft (J := J) e] (ask_left (TB := TB) (TL := TL) (TR := TR) e).
Proof. exact (spends_ask (A := jans TB TL TR) (AskLeft (J := J) e) PRet (fun a => spends_ret a)). Qed.
Lemma ask_right_spends (e' : J) : spends [AskRight (I := I) e'] (ask_right (TB := TB) (TL := TL) (TR := TR) e').
Proof. exact (spends_ask (A := jans TB TL TR) (AskRight (I := I) e') PRet (fun a => spends_ret a)). Qed.
End JAsks.

(** * Joint operations *)
Section Joint.
Context {E : Env} {K V L W R : Type} {KK : Key K} {KL : Key L} (rdef : R) (rd : R -> R -> R).

Lemma tm_makes st (wb : tway R) (wl : tway R) (wr : mway R) (m : trie K V) (r : trie L W) tr o : reachable m -> reachable r ->
  exec (emap_tm (A := jans (vres V R) (vres V R) (kres K V R)) rdef rd st (tw_op wb ask_both) (tw_op wl ask_left) (mw_op wr ask_right) m r) tr o ->
  makes (merge (fun e e' => tw_calls wb (AskBoth e e')) (fun e => tw_calls wl (AskLeft e)) (fun e' => mw_calls wr (AskRight e')) (map_visit m) (map_visit r)) tr o.
Proof.
  intros HM HN He. refine (emap_tm_spends rdef rd st (fun e e' => tw_calls wb (AskBoth e e')) (fun e => tw_calls wl (AskLeft e)) (fun e' => mw_calls wr (AskRight e')) _ _ _ _ _ _ m r (reachable_mwf _ HM) (reachable_mwf _ HN) tr o He).
  - refine (tw_cost wb ask_both (fun p => AskBoth (fst p) (snd p)) ask_both_spends).
  - refine (tw_cost wl ask_left (fun e => AskLeft e) ask_left_spends).
  - refine (mw_cost wr ask_right (fun e' => AskRight e') ask_right_spends).
Qed.
Lemma tm_once st (wb : tway R) (wl : tway R) (wr : mway R) (m : trie K V) (r : trie L W) tr o : reachable m -> reachable r ->
  exec (emap_tm (A := jans (vres V R) (vres V R) (kres K V R)) rdef rd st (tw_op wb ask_both) (tw_op wl ask_left) (mw_op wr ask_right) m r) tr o -> NoDup (map about (calls tr)).
Proof.
  intros HM HN He. eapply makes_nodup; [|eapply tm_makes; eassumption].
  apply (merge_about (tw_calls wb) (tw_calls wl) (mw_calls wr)); auto using tw_calls_small, mw_calls_small; apply mwf_uniq; apply reachable_mwf; assumption.
Qed.
Lemma tm_as st (wb : tway R) (wl : tway R) (wr : mway R) (m : trie K V) (r : trie L W) tr o f :
  exec (emap_tm (A := jans (vres V R) (vres V R) (kres K V R)) rdef rd st (tw_op wb ask_both) (tw_op wl ask_left) (mw_op wr ask_right) m r) tr o -> Forall (agrees f) tr ->
  o = map_tm rdef rd st (tw_fun wb (fun_both f)) (tw_fun wl (fun_left f)) (mw_fun wr (fun_right f)) m r.
Proof.
  intros He Hf. rewrite (exec_run f _ _ _ He Hf). apply emap_tm_run; [apply tw_same|apply tw_same|apply mw_same]; reflexivity.
Qed.
Lemma tm_answers st (wb : tway R) (wl : tway R) (wr : mway R) (m : trie K V) (r : trie L W) tr o : reachable m -> reachable r ->
  exec (emap_tm (A := jans (vres V R) (vres V R) (kres K V R)) rdef rd st (tw_op wb ask_both) (tw_op wl ask_left) (mw_op wr ask_right) m r) tr o -> unbroken tr ->
  exists f, Forall (agrees f) tr /\ o = map_tm rdef rd st (tw_fun wb (fun_both f)) (tw_fun wl (fun_left f)) (mw_fun wr (fun_right f)) m r.
Proof.
  intros HM HN He HB. destruct (recorded_three (VDropped rdef) (VDropped rdef) (KDropped rdef) tr HB (tm_once _ _ _ _ _ _ _ _ HM HN He)) as [f Hf].
  exists f. split; [assumption|]. eapply tm_as; eassumption.
Qed.
Lemma tm_execs st (wb : tway R) (wl : tway R) (wr : mway R) (m : trie K V) (r : trie L W) f :
  exists tr, exec (emap_tm (A := jans (vres V R) (vres V R) (kres K V R)) rdef rd st (tw_op wb ask_both) (tw_op wl ask_left) (mw_op wr ask_right) m r) tr (map_tm rdef rd st (tw_fun wb (fun_both f)) (tw_fun wl (fun_left f)) (mw_fun wr (fun_right f)) m r) /\ Forall (agrees f) tr.
Proof.
  destruct (run_exec f (emap_tm (A := jans (vres V R) (vres V R) (kres K V R)) rdef rd st (tw_op wb ask_both) (tw_op wl ask_left) (mw_op wr ask_right) m r)) as (tr & H1 & H2). exists tr. split; [|assumption].
  erewrite emap_tm_run in H1; [exact H1|apply tw_same|apply tw_same|apply mw_same]; reflexivity.
Qed.

Lemma mt_makes st (wb : tway R) (wl : mway R) (wr : tway R) (m : trie K V) (r : trie L W) tr o : reachable m -> reachable r ->
  exec (emap_mt (A := jans (vres W R) (kres L W R) (vres W R)) rdef rd st (tw_op wb ask_both) (mw_op wl ask_left) (tw_op wr ask_right) m r) tr o ->
  makes (merge (fun e e' => tw_calls wb (AskBoth e e')) (fun e => mw_calls wl (AskLeft e)) (fun e' => tw_calls wr (AskRight e')) (map_visit m) (map_visit r)) tr o.
Proof.
  intros HM HN He. refine (emap_mt_spends rdef rd st (fun e e' => tw_calls wb (AskBoth e e')) (fun e => mw_calls wl (AskLeft e)) (fun e' => tw_calls wr (AskRight e')) _ _ _ _ _ _ m r (reachable_mwf _ HM) (reachable_mwf _ HN) tr o He).
  - refine (tw_cost wb ask_both (fun p => AskBoth (fst p) (snd p)) ask_both_spends).
  - refine (mw_cost wl ask_left (fun e => AskLeft e) ask_left_spends).
  - refine (tw_cost wr ask_right (fun e' => AskRight e') ask_right_spends).
Qed.
Lemma mt_once st (wb : tway R) (wl : mway R) (wr : tway R) (m : trie K V) (r : trie L W) tr o : reachable m -> reachable r ->
  exec (emap_mt (A := jans (vres W R) (kres L W R) (vres W R)) rdef rd st (tw_op wb ask_both) (mw_op wl ask_left) (tw_op wr ask_right) m r) tr o -> NoDup (map about (calls tr)).
Proof.
  intros HM HN He. eapply makes_nodup; [|eapply mt_makes; eassumption].
  apply (merge_about (tw_calls wb) (mw_calls wl) (tw_calls wr)); auto using tw_calls_small, mw_calls_small; apply mwf_uniq; apply reachable_mwf; assumption.
Qed.
Lemma mt_as st (wb : tway R) (wl : mway R) (wr : tway R) (m : trie K V) (r : trie L W) tr o f :
  exec (emap_mt (A := jans (vres W R) (kres L W R) (vres W R)) rdef rd st (tw_op wb ask_both) (mw_op wl ask_left) (tw_op wr ask_right) m r) tr o -> Forall (agrees f) tr ->
  o = map_mt rdef rd st (tw_fun wb (fun_both f)) (mw_fun wl (fun_left f)) (tw_fun wr (fun_right f)) m r.
Proof.
  intros He Hf. rewrite (exec_run f _ _ _ He Hf). apply emap_mt_run; [apply tw_same|apply mw_same|apply tw_same]; reflexivity.
Qed.
Lemma mt_answers st (wb : tway R) (wl : mway R) (wr : tway R) (m : trie K V) (r : trie L W) tr o : reachable m -> reachable r ->
  exec (emap_mt (A := jans (vres W R) (kres L W R) (vres W R)) rdef rd st (tw_op wb ask_both) (mw_op wl ask_left) (tw_op wr ask_right) m r) tr o -> unbroken tr ->
  exists f, Forall (agrees f) tr /\ o = map_mt rdef rd st (tw_fun wb (fun_both f)) (mw_fun wl (fun_left f)) (tw_fun wr (fun_right f)) m r.
Proof.
  intros HM HN He HB. destruct (recorded_three (VDropped rdef) (KDropped rdef) (VDropped rdef) tr HB (mt_once _ _ _ _ _ _ _ _ HM HN He)) as [f Hf].
  exists f. split; [assumption|]. eapply mt_as; eassumption.
Qed.
Lemma mt_execs st (wb : tway R) (wl : mway R) (wr : tway R) (m : trie K V) (r : trie L W) f :
  exists tr, exec (emap_mt (A := jans (vres W R) (kres L W R) (vres W R)) rdef rd st (tw_op wb ask_both) (mw_op wl ask_left) (tw_op wr ask_right) m r) tr (map_mt rdef rd st (tw_fun wb (fun_both f)) (mw_fun wl (fun_left f)) (tw_fun wr (fun_right f)) m r) /\ Forall (agrees f) tr.
Proof.
  destruct (run_exec f (emap_mt (A := jans (vres W R) (kres L W R) (vres W R)) rdef rd st (tw_op wb ask_both) (mw_op wl ask_left) (tw_op wr ask_right) m r)) as (tr & H1 & H2). exists tr. split; [|assumption].
  erewrite emap_mt_run in H1; [exact H1|apply tw_same|apply mw_same|apply tw_same]; reflexivity.
Qed.

Lemma mm_makes {S X} {KS : Key S} (wb : mway R) (wl : mway R) (wr : mway R) (m : trie K V) (r : trie L W) tr o : reachable m -> reachable r ->
  exec (emap_mm (A := jans (kres S X R) (kres S X R) (kres S X R)) rdef rd (mw_op wb ask_both) (mw_op wl ask_left) (mw_op wr ask_right) m r) tr o ->
  makes (merge (fun e e' => mw_calls wb (AskBoth e e')) (fun e => mw_calls wl (AskLeft e)) (fun e' => mw_calls wr (AskRight e')) (map_visit m) (map_visit r)) tr o.
Proof.
  intros HM HN He. refine (emap_mm_spends rdef rd (fun e e' => mw_calls wb (AskBoth e e')) (fun e => mw_calls wl (AskLeft e)) (fun e' => mw_calls wr (AskRight e')) _ _ _ _ _ _ m r (reachable_mwf _ HM) (reachable_mwf _ HN) tr o He).
  - refine (mw_cost wb ask_both (fun p => AskBoth (fst p) (snd p)) ask_both_spends).
  - refine (mw_cost wl ask_left (fun e => AskLeft e) ask_left_spends).
  - refine (mw_cost wr ask_right (fun e' => AskRight e') ask_right_spends).
Qed.
Lemma mm_once {S X} {KS : Key S} (wb : mway R) (wl : mway R) (wr : mway R) (m : trie K V) (r : trie L W) tr o : reachable m -> reachable r ->
  exec (emap_mm (A := jans (kres S X R) (kres S X R) (kres S X R)) rdef rd (mw_op wb ask_both) (mw_op wl ask_left) (mw_op wr ask_right) m r) tr o -> NoDup (map about (calls tr)).
Proof.
  intros HM HN He. eapply makes_nodup; [|eapply mm_makes; eassumption].
  apply (merge_about (mw_calls wb) (mw_calls wl) (mw_calls wr)); auto using tw_calls_small, mw_calls_small; apply mwf_uniq; apply reachable_mwf; assumption.
Qed.
Lemma mm_as {S X} {KS : Key S} (wb : mway R) (wl : mway R) (wr : mway R) (m : trie K V) (r : trie L W) tr o f :
  exec (emap_mm (A := jans (kres S X R) (kres S X R) (kres S X R)) rdef rd (mw_op wb ask_both) (mw_op wl ask_left) (mw_op wr ask_right) m r) tr o -> Forall (agrees f) tr ->
  o = map_mm rdef rd (mw_fun wb (fun_both f)) (mw_fun wl (fun_left f)) (mw_fun wr (fun_right f)) m r.
Proof.
  intros He Hf. rewrite (exec_run f _ _ _ He Hf). apply emap_mm_run; [apply mw_same|apply mw_same|apply mw_same]; reflexivity.
Qed.
Lemma mm_answers {S X} {KS : Key S} (wb : mway R) (wl : mway R) (wr : mway R) (m : trie K V) (r : trie L W) tr o : reachable m -> reachable r ->
  exec (emap_mm (A := jans (kres S X R) (kres S X R) (kres S X R)) rdef rd (mw_op wb ask_both) (mw_op wl ask_left) (mw_op wr ask_right) m r) tr o -> unbroken tr ->
  exists f, Forall (agrees f) tr /\ o = map_mm rdef rd (mw_fun wb (fun_both f)) (mw_fun wl (fun_left f)) (mw_fun wr (fun_right f)) m r.
Proof.
  intros HM HN He HB. destruct (recorded_three (KDropped rdef) (KDropped rdef) (KDropped rdef) tr HB (mm_once _ _ _ _ _ _ _ HM HN He)) as [f Hf].
  exists f. split; [assumption|]. eapply mm_as; eassumption.
Qed.
Lemma mm_execs {S X} {KS : Key S} (wb : mway R) (wl : mway R) (wr : mway R) (m : trie K V) (r : trie L W) f :
  exists tr, exec (emap_mm (A := jans (kres S X R) (kres S X R) (kres S X R)) rdef rd (mw_op wb ask_both) (mw_op wl ask_left) (mw_op wr ask_right) m r) tr (map_mm rdef rd (mw_fun wb (fun_both f)) (mw_fun wl (fun_left f)) (mw_fun wr (fun_right f)) m r) /\ Forall (agrees f) tr.
Proof.
  destruct (run_exec f (emap_mm (A := jans (kres S X R) (kres S X R) (kres S X R)) rdef rd (mw_op wb ask_both) (mw_op wl ask_left) (mw_op wr ask_right) m r)) as (tr & H1 & H2). exists tr. split; [|assumption].
  erewrite emap_mm_run in H1; [exact H1|apply mw_same|apply mw_same|apply mw_same]; reflexivity.
Qed.

End Joint.

Section JointT.
Context {E : Env} {K V R : Type} {KK : Key K} (rdef : R) (rd : R -> R -> R).

Lemma tt_makes st (wb : jway R) (wl wr : tway R) (m r : trie K V) tr o : reachable m -> reachable r ->
  exec (emap_tt (A := jans (bres V R) (vres V R) (vres V R)) rdef rd st (jw_op wb (fun e e' => ask_both (e, e'))) (tw_op wl ask_left) (tw_op wr ask_right) m r) tr o ->
  makes (merge (fun e e' => jw_calls wb (AskBoth e e')) (fun e => tw_calls wl (AskLeft e)) (fun e' => tw_calls wr (AskRight e')) (map_visit m) (map_visit r)) tr o.
Proof.
  intros HM HN He. refine (emap_tt_spends rdef rd st (fun e e' => jw_calls wb (AskBoth e e')) (fun e => tw_calls wl (AskLeft e)) (fun e' => tw_calls wr (AskRight e')) _ _ _ _ _ _ m r (reachable_mwf _ HM) (reachable_mwf _ HN) tr o He).
  - refine (jw_cost wb (fun e e' => ask_both (e, e')) (fun e e' => AskBoth e e') _). intros e e'. exact (ask_both_spends (e, e')).
  - refine (tw_cost wl ask_left (fun e => AskLeft e) ask_left_spends).
  - refine (tw_cost wr ask_right (fun e' => AskRight e') ask_right_spends).
Qed.
Lemma tt_once st (wb : jway R) (wl wr : tway R) (m r : trie K V) tr o : reachable m -> reachable r ->
  exec (emap_tt (A := jans (bres V R) (vres V R) (vres V R)) rdef rd st (jw_op wb (fun e e' => ask_both (e, e'))) (tw_op wl ask_left) (tw_op wr ask_right) m r) tr o -> NoDup (map about (calls tr)).
Proof.
  intros HM HN He. eapply makes_nodup; [|exact (tt_makes _ _ _ _ _ _ _ _ HM HN He)].
  apply (merge_about (jw_calls wb) (tw_calls wl) (tw_calls wr)); auto using tw_calls_small, jw_calls_small; apply mwf_uniq; apply reachable_mwf; assumption.
Qed.
Lemma tt_as st (wb : jway R) (wl wr : tway R) (m r : trie K V) tr o f :
  exec (emap_tt (A := jans (bres V R) (vres V R) (vres V R)) rdef rd st (jw_op wb (fun e e' => ask_both (e, e'))) (tw_op wl ask_left) (tw_op wr ask_right) m r) tr o -> Forall (agrees f) tr ->
  o = map_tt rdef rd st (jw_fun wb (fun e e' => fun_both f (e, e'))) (tw_fun wl (fun_left f)) (tw_fun wr (fun_right f)) m r.
Proof.
  intros He Hf. rewrite (exec_run f _ _ _ He Hf). apply emap_tt_run; [apply jw_same|apply tw_same..]; reflexivity.
Qed.
Lemma tt_answers st (wb : jway R) (wl wr : tway R) (m r : trie K V) tr o : reachable m -> reachable r ->
  exec (emap_tt (A := jans (bres V R) (vres V R) (vres V R)) rdef rd st (jw_op wb (fun e e' => ask_both (e, e'))) (tw_op wl ask_left) (tw_op wr ask_right) m r) tr o -> unbroken tr ->
  exists f, Forall (agrees f) tr /\ o = map_tt rdef rd st (jw_fun wb (fun e e' => fun_both f (e, e'))) (tw_fun wl (fun_left f)) (tw_fun wr (fun_right f)) m r.
Proof.
  intros HM HN He HB. destruct (recorded_three (BDropped rdef) (VDropped rdef) (VDropped rdef) tr HB (tt_once _ _ _ _ _ _ _ _ HM HN He)) as [f Hf].
  exists f. split; [assumption|]. eapply tt_as; eassumption.
Qed.
Lemma tt_execs st (wb : jway R) (wl wr : tway R) (m r : trie K V) f :
  exists tr, exec (emap_tt (A := jans (bres V R) (vres V R) (vres V R)) rdef rd st (jw_op wb (fun e e' => ask_both (e, e'))) (tw_op wl ask_left) (tw_op wr ask_right) m r) tr (map_tt rdef rd st (jw_fun wb (fun e e' => fun_both f (e, e'))) (tw_fun wl (fun_left f)) (tw_fun wr (fun_right f)) m r) /\ Forall (agrees f) tr.
Proof.
  destruct (run_exec f (emap_tt (A := jans (bres V R) (vres V R) (vres V R)) rdef rd st (jw_op wb (fun e e' => ask_both (e, e'))) (tw_op wl ask_left) (tw_op wr ask_right) m r)) as (tr & H1 & H2). exists tr. split; [|assumption].
  erewrite emap_tt_run in H1; [exact H1|apply jw_same|apply tw_same..]; reflexivity.
Qed.

End JointT.

(** * Playing a closure that counts its calls, for the examples *)
Section Play.
Context {Q : Type} {A : Q -> Type}.

(** [f n q]: what the closure does when called with [q] as its [n]th call;
    [None] is a panic. *)
Fixpoint play {X} (f : nat -> forall q, option (A q)) (n : nat) (p : prog A X) : list event * outcome X :=
  match p with
  | PRet x => ([], Ret x)
  | PPanic => ([], Panic)
  | PDiverge => ([], Diverge)
  | PAsk q k =>
      match f n q with
      | Some a => let (tr, o) := play f (S n) (k a) in (answer q a :: tr, o)
      | None => ([broke q], Panic)
      end
  end.

Lemma play_exec {X} f (p : prog A X) : forall n, exec p (fst (play f n p)) (snd (play f n p)).
Proof.
  induction p as [x| | |q k IH]; intros n; cbn [play exec]; auto.
  destruct (f n q) as [a|]; [|auto]. specialize (IH a (S n)). destruct (play f (S n) (k a)) as [tr o]. left. exists a, tr. auto.
Qed.

End Play.
