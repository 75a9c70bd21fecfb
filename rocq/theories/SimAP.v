(** C66: the joint operations with constants, beside the same with closures. *)
From Coq Require Import NArith Arith List Bool Lia Permutation.
From Verif Require Import Base Words Flag Bia BiaP Node Inv Api Reach Trans Transform Joint Eff EffP EffTP EffApi EffMapP Ask SpecAsk AskP AskHashP AskT SpecAskT AskTP AskTTP AskMP AskTopP AskJ SpecAskJ AskJTopP AskJPlaceP AskJLooseP Misuse AskApiP AskJSumP SpecConst SimP SimLP SimJP SimTP.
Import ListNotations.
Open Scope N_scope.

Section Ask.
Context {Q : Type} {A : Q -> Type} (keep soft : Q -> bool) (fair : event (A := A) -> Prop).
Notation sim := (sim keep soft fair).
Notation idle := (idle keep fair).

Lemma idle_ask (q : Q) (a : A q) (G : A q -> Prop) : keep q = false -> fair (answer q a) -> G a -> idle (PAsk (A := A) q PRet) G.
Proof.
  intros H1 H2 H3. exists [answer q a], a. split; [left; exists a, []; repeat split|]. unfold calls_kept. cbn [filter]. change (asked (answer q a)) with q.
  rewrite H1. split; [reflexivity|]. split; [constructor; [exact H2|constructor]|]. split; [|exact H3].
  intros q' [Hq|[]]. unfold answer, broke in Hq. assert (Hs : projT1 (existT (fun q => option (A q)) q (Some a)) = q') by (rewrite Hq; reflexivity). cbn in Hs. subst q'.
  assert (HH : forall (P : forall q, option (A q) -> Prop), P q (Some a) -> P q None).
  { intros P HP. change (P (projT1 (existT (fun q => option (A q)) q None)) (projT2 (existT (fun q => option (A q)) q None))). rewrite <- Hq. exact HP. }
  exact (HH (fun _ o => o <> None) (fun H => ltac:(discriminate H)) eq_refl).
Qed.
(** A call with other arguments of the same kind. *)
Lemma sim_soft (q q1 : Q) (c : A q -> A q1) : keep q = false -> keep q1 = false -> soft q = true -> (forall a, fair (answer q1 a)) -> fair (broke q1) ->
  sim any2 (PAsk (A := A) q PRet) (PAsk q1 PRet).
Proof.
  intros H1 H2 H3 H4 H5 tr o He. cbn [exec] in He. destruct He as [(a & tr' & -> & -> & ->)|[-> ->]].
  - exists [answer q1 (c a)], (Ret (c a)). split; [left; exists (c a), []; repeat split|]. split; [|exact Logic.I].
    unfold same, calls_kept. cbn [filter]. change (asked (answer q1 (c a))) with q1. change (asked (answer q a)) with q. rewrite H1, H2. split; [reflexivity|].
    split; [constructor; [|constructor]; change (asked (answer q a)) with q; rewrite H3; apply orb_true_r|]. split; [constructor; [apply H4|constructor]|].
    split; [|apply le_n]. intros [q' [Hq|[]]]. exfalso. 
    assert (HI : idle (PAsk (A := A) q1 PRet) (fun _ => True)) by (apply idle_ask with (a := c a); auto).
    unfold answer, broke in Hq. assert (Hs : projT1 (existT (fun q => option (A q)) q1 (Some (c a))) = q') by (rewrite Hq; reflexivity). cbn in Hs. subst q'.
    assert (HH : forall (P : forall q, option (A q) -> Prop), P q1 (Some (c a)) -> P q1 None).
    { intros P HP. change (P (projT1 (existT (fun q => option (A q)) q1 None)) (projT2 (existT (fun q => option (A q)) q1 None))). rewrite <- Hq. exact HP. }
    exact (HH (fun _ o => o <> None) (fun H => ltac:(discriminate H)) eq_refl).
  - exists [broke q1], Panic. split; [right; split; reflexivity|]. split; [|exact Logic.I].
    unfold same, calls_kept. cbn [filter]. change (asked (broke q1)) with q1. change (asked (broke q)) with q. rewrite H1, H2. split; [reflexivity|].
    split; [constructor; [|constructor]; change (asked (broke q)) with q; rewrite H3; apply orb_true_r|]. split; [constructor; [apply H5|constructor]|].
    split; [|apply le_n]. intros _. exists q. left. reflexivity.
Qed.
End Ask.

Section Api.
Context {E : Env} {KL VL KR VR K V TB TL TR R : Type}.
Notation A := (jreply KL VL KR VR K V TB TL TR R).
Context (bb bl br : bool) (sb : option TB -> Prop) (sl : option TL -> Prop) (sr : option TR -> Prop).
Notation keep := (jkeep (KL := KL) (VL := VL) (KR := KR) (VR := VR) (K := K) (V := V) (R := R) bb bl br).
Notation soft := (jsoft (KL := KL) (VL := VL) (KR := KR) (VR := VR) (K := K) (V := V) (R := R)).
Notation fair := (jfair (KL := KL) (VL := VL) (KR := KR) (VR := VR) (K := K) (V := V) (R := R) sb sl sr).
Notation ask q := (PAsk (A := A) q PRet).

Lemma jdef_sim : sim keep soft fair any2 (ask JDefault) (ask JDefault).
Proof. apply (sim_soft keep soft fair JDefault JDefault (fun a => a)); try reflexivity; intros; exact Logic.I. Qed.
Lemma jdef_idle (r : R) : idle keep fair (ask JDefault) any.
Proof. apply (idle_ask keep fair JDefault r); try reflexivity; exact Logic.I. Qed.
Lemma jred_sim (x y x1 y1 : R) : sim keep soft fair any2 (ask (JReduce x y)) (ask (JReduce x1 y1)).
Proof. apply (sim_soft keep soft fair (JReduce x y) (JReduce x1 y1) (fun a => a)); try reflexivity; intros; exact Logic.I. Qed.
Lemma jred_idle (x y : R) : idle keep fair (ask (JReduce x y)) any.
Proof. apply (idle_ask keep fair (JReduce x y) x); try reflexivity; exact Logic.I. Qed.
Lemma jkey_sim k : sim keep soft fair eq (ask (JKey k)) (ask (JKey k)).
Proof. apply (sim_ask keep soft fair (JKey k)); try reflexivity; intros; exact Logic.I. Qed.
Lemma jvalue_sim v : sim keep soft fair eq (ask (JValue v)) (ask (JValue v)).
Proof. apply (sim_ask keep soft fair (JValue v)); try reflexivity; intros; exact Logic.I. Qed.
Lemma jkeyed_sim : ksim keep soft fair (jkeyed (TB := TB) (TL := TL) (TR := TR)).
Proof.
  constructor; intros; unfold jkeyed; cbn [ky_hash ky_hash' ky_eq ky_eq'].
  - apply (sim_ask keep soft fair (JHash k)); try reflexivity; intros; exact Logic.I.
  - apply (sim_ask keep soft fair (JHash' k)); try reflexivity; intros; exact Logic.I.
  - apply (sim_ask keep soft fair (JEq k l)); try reflexivity; intros; exact Logic.I.
  - apply (sim_ask keep soft fair (JEq' k l)); try reflexivity; intros; exact Logic.I.
Qed.
End Api.

Section Like.
Context {Q : Type} {A : Q -> Type} (keep soft : Q -> bool) (fair : event (A := A) -> Prop).
Lemma tw_like {I V R} (w : tway R) (g g1 : I -> prog A (vres V R)) : g = g1 ->
  (tw_closure w = true -> forall i, sim keep soft fair eq (g i) (g i)) ->
  (forall o, tw_closure w = false -> tw_from w o True -> forall i, idle keep fair (g i) (eq o)) ->
  tlike keep soft fair (tw_op w g) (tw_op TwClosure g1).
Proof. intros <- H1 H2. destruct w; cbn; constructor; [apply H1; reflexivity|apply (H2 (VUnchanged _)); reflexivity|apply (H2 (VDropped _)); reflexivity]. Qed.
Lemma mw_like {I S X R} (w : mway R) (g g1 : I -> prog A (kres S X R)) : g = g1 ->
  (mw_closure w = true -> forall i, sim keep soft fair eq (g i) (g i)) ->
  (forall o, mw_closure w = false -> mw_from w o True -> forall i, idle keep fair (g i) (eq o)) ->
  mlike keep soft fair (mw_op w g) (mw_op MwClosure g1).
Proof. intros <- H1 H2. destruct w; cbn; constructor; [apply H1; reflexivity|apply (H2 (KDropped _)); reflexivity]. Qed.
End Like.

Lemma tw_fair_all {V R} (w : tway R) : tw_closure w = true -> forall a : option (vres V R), tw_fair w a.
Proof. destruct w; [|discriminate..]. intros _ [a|]; [exact Logic.I|reflexivity]. Qed.
Lemma mw_fair_all {S X R} (w : mway R) : mw_closure w = true -> forall a : option (kres S X R), mw_fair w a.
Proof. destruct w; [|discriminate]. intros _ [a|]; [exact Logic.I|reflexivity]. Qed.

Section Ops.
Context {E : Env} {KL VL KR VR R : Type}.

Ltac askq := match goal with |- SimP.sim ?k ?s ?f _ (PAsk ?q PRet) _ => apply (sim_ask k s f q) | |- SimP.idle ?k ?f (PAsk ?q PRet) _ => eapply (idle_ask k f q) end.
Ltac likely := first [apply tw_like | apply mw_like]; [reflexivity|intros Hw ?; askq;
   [exact Hw|intros ?; first [apply tw_fair_all|apply mw_fair_all]; exact Hw|first [exact (tw_fair_all _ Hw None)|exact (mw_fair_all _ Hw None)]]
   |intros ? Hw Hf ?; askq; [exact Hw|exact Hf|reflexivity]].

Theorem ask_tm_sim st (wb wl : tway R) (wr : mway R) (m : trie KL VL) (right : trie KR VR) : loose 0 m -> loose 0 right ->
  sim (jkeep (tw_closure wb) (tw_closure wl) (mw_closure wr)) jsoft (jfair (tw_fair wb) (tw_fair wl) (mw_fair wr)) same_map
    (ask_tm st wb wl wr m right) (ask_tm st TwClosure TwClosure MwClosure m right).
Proof.
  intros Hm Hr. unfold ask_tm. cbv zeta. apply sim_bind with (P := trel).
  - apply am_tm_sim with (d := 0); [apply jdef_sim|apply jdef_idle|apply jred_sim|apply jred_idle|apply jkeyed_sim|apply jkey_sim|apply jvalue_sim|likely..|exact Hm|exact Hr].
  - intros t t1 Ht. apply sim_ret. destruct t as [r|n], t1 as [r1|n1]; try contradiction; [split; reflexivity|].
    cbn in Ht. split; [|reflexivity]. destruct n, n1; cbn in Ht |- *; try contradiction; try congruence.
Qed.
Theorem ask_mt_sim st (wb : tway R) (wl : mway R) (wr : tway R) (m : trie KL VL) (right : trie KR VR) : loose 0 m -> loose 0 right ->
  sim (jkeep (tw_closure wb) (mw_closure wl) (tw_closure wr)) jsoft (jfair (tw_fair wb) (mw_fair wl) (tw_fair wr)) same_map
    (ask_mt st wb wl wr m right) (ask_mt st TwClosure MwClosure TwClosure m right).
Proof.
  intros Hm Hr. unfold ask_mt. cbv zeta. apply sim_bind with (P := trel).
  - apply am_mt_sim with (d := 0); [apply jdef_sim|apply jdef_idle|apply jred_sim|apply jred_idle|apply jkeyed_sim|apply jkey_sim|apply jvalue_sim|likely..|exact Hm|exact Hr].
  - intros t t1 Ht. apply sim_ret. destruct t as [r|n], t1 as [r1|n1]; try contradiction; [split; reflexivity|].
    cbn in Ht. split; [|reflexivity]. destruct n, n1; cbn in Ht |- *; try contradiction; try congruence.
Qed.
Theorem ask_mm_sim {S X} (wb wl wr : mway R) (m : trie KL VL) (right : trie KR VR) : loose 0 m -> loose 0 right ->
  sim (jkeep (mw_closure wb) (mw_closure wl) (mw_closure wr)) jsoft (jfair (mw_fair wb) (mw_fair wl) (mw_fair wr)) same_made
    (ask_mm (S := S) (X := X) wb wl wr m right) (ask_mm MwClosure MwClosure MwClosure m right).
Proof.
  intros Hm Hr. unfold ask_mm. cbv zeta. apply sim_bind with (P := nrel).
  - apply am_mm_sim with (d := 0); [apply jdef_sim|apply jdef_idle|apply jred_sim|apply jred_idle|apply jkeyed_sim|likely..|exact Hm|exact Hr].
  - intros n n1 Ht. apply sim_ret. unfold same_made. destruct n, n1; cbn in Ht |- *; try contradiction; try congruence.
Qed.
End Ops.
