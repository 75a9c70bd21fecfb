(** transform and transmute whatever the client's code answers. *)
From Coq Require Import NArith Arith List Bool Lia ZifyBool ZifyN ZifyNat Permutation.
From Verif Require Import Base Words WordsP Flag FlagP Bia BiaP Node Inv InsertP Api Trans Transform Profile Eff EffP EffTP EffApi AskP AskHashP AskT SpecAskT JoinP LoopP.
Import ListNotations.
Open Scope N_scope.

(** * The books *)
Section Books.
Context {Ev I C R : Type} (see : Ev -> item I C R) (rof : I -> R) (cost : I -> list C).
Notation settled := (settled see rof cost).

Lemma ops_app t t' : ops see (t ++ t') = ops see t ++ ops see t'.
Proof. apply flat_map_app. Qed.
Lemma clones_app t t' : clones see (t ++ t') = clones see t ++ clones see t'.
Proof. apply flat_map_app. Qed.
Lemma reduces_app t t' : reduces see (t ++ t') = reduces see t + reduces see t'.
Proof. unfold reduces. rewrite filter_app, lenN_app. reflexivity. Qed.
Lemma defaults_app t t' : defaults see (t ++ t') = defaults see t + defaults see t'.
Proof. unfold defaults. rewrite filter_app, lenN_app. reflexivity. Qed.

Lemma reduced_incl t t' l r : (forall e, In e t -> In e t') -> reduced see t l r -> reduced see t' l r.
Proof.
  intros H HR. induction HR as [r|e r Hi Hs|e l1 l2 a b r Hi Hs H1 IH1 H2 IH2]; [constructor|eapply red_default; eauto|].
  eapply red_both; eauto.
Qed.

Lemma lenN_perm {A} (l l' : list A) : Permutation l l' -> lenN l = lenN l'.
Proof. intros H. unfold lenN. rewrite (Permutation_length H). reflexivity. Qed.

Lemma settled_perm t t' is r : Permutation t t' -> settled t is r -> settled t' is r.
Proof.
  intros HP (H1 & H2 & H3 & rest & H4). split; [|split; [|split]].
  - rewrite <- H1. symmetry. apply flat_map_perm. assumption.
  - apply (reduced_incl t); [|assumption]. intros e He. eapply Permutation_in; eassumption.
  - unfold reduces, defaults in *. rewrite <- (lenN_perm _ _ (filter_perm _ _ _ HP)), <- (lenN_perm _ _ (filter_perm _ _ _ HP)). exact H3.
  - exists rest. rewrite <- H4. apply Permutation_app_tail. symmetry. apply flat_map_perm. assumption.
Qed.

Lemma settled_default e r : see e = ItDefault r -> settled [e] [] r.
Proof.
  intros H. split; [|split; [|split]].
  - unfold ops. cbn. rewrite H. reflexivity.
  - eapply red_default; [left; reflexivity|assumption].
  - unfold reduces, defaults. cbn [filter]. rewrite H. reflexivity.
  - exists []. unfold clones. cbn. rewrite H. reflexivity.
Qed.

(** An answer, and the clones it paid for. *)
Lemma settled_op e i cs rest : see e = ItOp i -> (forall c, In c cs -> exists x, see c = ItClone x) ->
  Permutation (clones see cs ++ rest) (cost i) -> settled (e :: cs) [i] (rof i).
Proof.
  intros He Hc HP.
  assert (H1 : ops see cs = [] /\ reduces see cs = 0 /\ defaults see cs = 0).
  { clear HP. induction cs as [|c cs IH]; [repeat split|]. destruct (Hc c (or_introl eq_refl)) as [x Hx].
    destruct IH as (IH1 & IH2 & IH3); [intros c' Hc'; apply Hc; right; assumption|].
    unfold ops, reduces, defaults in *. cbn [flat_map filter]. rewrite Hx. auto. }
  destruct H1 as (H1 & H2 & H3). change (e :: cs) with ([e] ++ cs). split; [|split; [|split]].
  - rewrite ops_app, H1. unfold ops. cbn. rewrite He. reflexivity.
  - constructor.
  - rewrite reduces_app, defaults_app, H2, H3. unfold reduces, defaults. cbn [filter]. rewrite He. reflexivity.
  - exists rest. rewrite clones_app. unfold clones at 1. cbn. rewrite He. cbn. rewrite app_nil_r. assumption.
Qed.

Lemma settled_reduce t1 t2 is1 is2 r1 r2 e r : settled t1 is1 r1 -> settled t2 is2 r2 -> see e = ItReduce r1 r2 r ->
  settled (t1 ++ t2 ++ [e]) (is1 ++ is2) r.
Proof.
  intros (A1 & A2 & A3 & x1 & A4) (B1 & B2 & B3 & x2 & B4) He. split; [|split; [|split]].
  - rewrite !ops_app, A1, B1. unfold ops. cbn. rewrite He. cbn. rewrite app_nil_r. reflexivity.
  - rewrite map_app. eapply red_both; [|exact He|eapply reduced_incl; [|exact A2]|eapply reduced_incl; [|exact B2]];
      intros; repeat (rewrite in_app_iff; cbn [In]); auto.
  - rewrite !reduces_app, !defaults_app, lenN_app. assert (reduces see [e] = 1 /\ defaults see [e] = 0) as [-> ->]; [|lia].
    unfold reduces, defaults. cbn [filter]. rewrite He. auto.
  - exists (x1 ++ x2). rewrite !clones_app, flat_map_app. unfold clones at 3. cbn. rewrite He. cbn. rewrite app_nil_r, <- A4, <- B4.
    rewrite <- !app_assoc. apply Permutation_app_head. rewrite !app_assoc. apply Permutation_app_tail. apply Permutation_app_comm.
Qed.

End Books.

(** * Shapes *)
Section Shape.
Context {E : Env} {K V : Type} (leaf : N -> N -> list (K * V) -> Prop) (deep : N -> N -> Prop).

Inductive shaped : N -> N -> mnode K V -> Prop :=
| shaped_S d p s : leaf d p (s_visit s) -> shaped d p (MS s)
| shaped_L d p l : lok l -> leaf d p (l_visit l) -> shaped d p (ML l)
| shaped_C d p bits values x : deep d p -> okv (max_ones fw) bits values -> (values <> [] \/ d = 0) ->
    x = lenN (concat (map m_visit values)) ->
    (forall i c, getv bits values i = Some c -> shaped (d + 1) (p + i * 2 ^ off d) c) ->
    shaped d p (MC (BIA bits values x)).

Lemma shaped_size d p n : shaped d p n -> m_size n = lenN (m_visit n).
Proof. intros [? ? s Hs|? ? l Hl Hf|? ? bits values x HD Hok Hne Hx Hch]; [reflexivity|apply l_size_len; assumption|exact Hx]. Qed.

Definition leafy (n : mnode K V) : Prop := match n with MC _ => False | ML l => lok l | MS _ => True end.
Lemma leafy_shaped d p n : leafy n -> leaf d p (m_visit n) -> shaped d p n.
Proof. destruct n; cbn; intros H1 H2; [contradiction|constructor; assumption..]. Qed.

End Shape.

(** The order in which the entries of a node are handed to the closure. *)
Fixpoint back {E : Env} {K V} (n : mnode K V) : list (K * V) :=
  match n with
  | MC b => concat (map back (bvalues b))
  | ML l => rev (l_visit l)
  | MS s => s_visit s
  end.
Definition oback {E : Env} {K V} (o : option (mnode K V)) : list (K * V) := match o with Some n => back n | None => [] end.

Lemma back_C {E : Env} {K V} bits (values : list (mnode K V)) x : okv (max_ones fw) bits values ->
  back (MC (BIA bits values x)) = flat_map (fun i => oback (getv bits values i)) (range 0 (max_ones fw)).
Proof.
  intros Hok. cbn [back bvalues]. rewrite (values_slots _ _ _ Hok) at 1. unfold slots.
  rewrite <- flat_map_concat_map. induction (range 0 (max_ones fw)) as [|i l IH]; [reflexivity|]. cbn [flat_map].
  rewrite flat_map_app, IH. f_equal. destruct (getv bits values i); cbn; [apply app_nil_r|reflexivity].
Qed.

Section Generic.
Context {E : Env} {Q : Type} {A : Q -> Type} {K V S X R T C : Type}.
Notation event := (event (A := A)).
Notation trace := (list event).
Implicit Types tr t : trace.
Context (good : event -> Prop).
Context (see : event -> item ((K * V) * T) C R) (told : event -> list (K * V)).
Context (rof : (K * V) * T -> R) (cost : (K * V) * T -> list C) (unch : (K * V) * T -> bool).
Context (becomes : trace -> (K * V) * T -> list (S * X) -> Prop).
Context (leafK : N -> N -> list (K * V) -> Prop) (leafS : N -> N -> list (S * X) -> Prop) (deep : N -> N -> Prop).

Definition broken tr : Prop := exists q, In (broke q) tr.
Lemma broken_app1 t t' : broken t -> broken (t ++ t').
Proof. intros [q Hq]. exists q. apply in_or_app. auto. Qed.
Lemma broken_app2 t t' : broken t' -> broken (t ++ t').
Proof. intros [q Hq]. exists q. apply in_or_app. auto. Qed.

(** One call. *)
Definition prim {Y} (p : prog A Y) (es : list (K * V)) (it : Y -> event -> Prop) : Prop :=
  gs good p (fun tr o => flat_map told tr = es /\
    match o with Ret y => exists e, tr = [e] /\ it y e | Panic => broken tr | Diverge => False end).

Context (def : prog A R) (red : R -> R -> prog A R).
Context (Hdef : prim def [] (fun r e => see e = ItDefault r)).
Context (Hred : forall a b, prim (red a b) [] (fun r e => see e = ItReduce a b r)).
Context (Hmono : forall t t' i out, (forall e, In e t -> In e t') -> becomes t i out -> becomes t' i out).
Context (Hleaf : forall d p es is outs t, leafK d p es -> map fst is = es -> Forall2 (becomes t) is outs -> Forall good t -> leafS d p (concat outs)).
Context (Hup : forall d p i l, deep d p -> leafS (d + 1) (p + i * 2 ^ off d) l -> leafS d p l).

Notation settled := (settled see rof cost).
Notation shapedK := (shaped leafK deep).
Notation shapedS := (shaped leafS deep).

Lemma becomes_mono t t' is outs : (forall e, In e t -> In e t') -> Forall2 (becomes t) is outs -> Forall2 (becomes t') is outs.
Proof. intros H HF. induction HF; constructor; eauto. Qed.

(** A node done: [es] were its entries, [on] is what is left, [r] its reduction,
    [u] whether nothing was to change; then nothing was cloned. *)
Definition done (es : list (K * V)) (on : option (mnode S X)) (r : R) (u : bool) tr : Prop :=
  exists is outs, settled tr is r /\ map fst is = es /\ Forall2 (becomes tr) is outs /\ ovisit on = concat outs /\ u = forallb unch is /\ (u = true -> clones see tr = []).

(** The calls of the closure are [bk], or its start. *)
Definition ends {Y} (bk : list (K * V)) (G : trace -> Y -> Prop) tr (o : outcome Y) : Prop :=
  exists rest, flat_map told tr ++ rest = bk /\
    match o with Ret y => rest = [] /\ G tr y | Panic => broken tr | Diverge => False end.

Lemma ends_ret {Y} (y : Y) (G : trace -> Y -> Prop) : G [] y -> gs good (PRet y) (ends [] G).
Proof. intros H. apply gs_ret. exists []. auto. Qed.

Lemma ends_bind {Y Z} bk1 bk2 (p : prog A Y) (k : Y -> prog A Z) (P : trace -> Y -> Prop) (G : trace -> Z -> Prop) :
  gs good p (ends bk1 P) -> (forall t y, Forall good t -> P t y -> gs good (k y) (ends bk2 (fun t' z => G (t ++ t') z))) ->
  gs good (pbind p k) (ends (bk1 ++ bk2) G).
Proof.
  intros H1 H2. eapply gs_bind; [exact H1|..].
  - intros t y Ht (rest & Hr & -> & HP). rewrite app_nil_r in Hr. subst bk1. eapply gs_weak; [apply (H2 t y Ht HP)|].
    intros t' o (rest & <- & Ho). exists rest. split; [rewrite flat_map_app, app_assoc; reflexivity|].
    destruct o; [assumption|apply broken_app2; assumption|assumption].
  - intros t (rest & <- & Ho). exists (rest ++ bk2). split; [apply app_assoc|assumption].
  - intros t (rest & _ & []).
Qed.

Lemma ends_prim {Y Z} es (p : prog A Y) it (k : Y -> prog A Z) (G : trace -> Z -> Prop) : prim p es it ->
  (forall y e, good e -> it y e -> gs good (k y) (ends [] (fun t z => G ([e] ++ t) z))) -> gs good (pbind p k) (ends es G).
Proof.
  intros H1 H2. rewrite <- (app_nil_r es). apply (ends_bind es [] p k (fun t y => exists e, t = [e] /\ it y e)).
  - eapply gs_weak; [exact H1|]. intros t o [<- Ho]. exists []. split; [apply app_nil_r|]. destruct o; auto.
  - intros t y Ht (e & -> & Hi). apply H2; [|assumption]. inversion Ht; assumption.
Qed.

Lemma ends_lift {Y Z} bk (o : outcome Y) y (k : Y -> prog A Z) (G : trace -> Z -> Prop) : o = Ret y ->
  gs good (k y) (ends bk G) -> gs good (pbind (lift o) k) (ends bk G).
Proof. intros -> H. exact H. Qed.

Lemma ends_weak {Y} bk (p : prog A Y) (P G : trace -> Y -> Prop) : gs good p (ends bk P) ->
  (forall t y, Forall good t -> P t y -> G t y) -> gs good p (ends bk G).
Proof.
  intros H1 H2 t o He Ht. destruct (H1 t o He Ht) as (rest & Hr & Ho). exists rest. split; [assumption|].
  destruct o; [|assumption..]. destruct Ho. auto.
Qed.

(** ** The loop *)
Section Loop.
Context (d p : N) (bits : N) (values : list (mnode K V)).
Context (Hok : okv (max_ones fw) bits values).
Context (Hd : deep d p).

Definition slot (j : N) : list (K * V) := ovisit (getv bits values j).

Definition inv (lo i : N) tr (a : acc S X R) : Prop :=
  okv i (a_bits a) (a_values a) /\ (forall j, j < lo -> N.testbit (a_bits a) j = false) /\
  a_size a = lenN (concat (map m_visit (a_values a))) /\
  (forall j c, getv (a_bits a) (a_values a) j = Some c -> shapedS (d + 1) (p + j * 2 ^ off d) c) /\
  exists is outs, settled tr is (a_red a) /\ map fst is = flat_map slot (range lo i) /\ Forall2 (becomes tr) is outs /\
    concat (map m_visit (a_values a)) = concat outs /\ a_ul a = forallb unch is /\ (a_ul a = true -> clones see tr = []).

Lemma inv_start lo e r : see e = ItDefault r -> inv lo lo [e] (acc0 r).
Proof.
  intros He. split; [apply okv_nil|]. split; [intros; apply N.bits_0|]. split; [reflexivity|]. split.
  - intros j c. cbn [acc0 a_bits a_values]. rewrite getv_nil. discriminate.
  - exists [], []. split; [apply settled_default; assumption|]. rewrite range_nil. repeat split; [constructor|].
    intros _. unfold clones. cbn. rewrite He. reflexivity.
Qed.

(** One child more. *)
Lemma inv_push lo i tr t a on r u e r' : lo <= i -> i < max_ones fw -> inv lo i tr a -> done (slot i) on r u t ->
  (forall c, on = Some c -> shapedS (d + 1) (p + i * 2 ^ off d) c) -> see e = ItReduce (a_red a) r r' ->
  inv lo (i + 1) (tr ++ t ++ [e])
    (Acc (a_size a + match on with Some c => m_size c | None => 0 end)
       (N.lor (a_bits a) (match on with Some _ => 2 ^ i | None => 0 end)) (a_values a ++ olist on) (a_ul a && u) (a_ur a) r').
Proof.
  intros Hlo Hi (H1 & H2 & H3 & H4 & is & outs & H5 & H6 & H7 & H8 & H9 & H10) (is' & outs' & D1 & D2 & D3 & D4 & D5 & D6) Hs He.
  split; [|split; [|split; [|split]]].
  - cbn [a_bits a_values]. destruct on as [c|]; cbn [olist].
    + replace (i + 1) with (N.succ i) by lia. apply okv_push. assumption.
    + rewrite N.lor_0_r, app_nil_r. apply (okv_mono i); [lia|assumption].
  - cbn [a_bits]. intros j Hj. rewrite N.lor_spec, H2 by assumption. destruct on; [|apply N.bits_0].
    rewrite N.pow2_bits_eqb. destruct (N.eqb_spec i j); [lia|reflexivity].
  - cbn [a_size a_values]. rewrite map_app, concat_app, lenN_app, H3. destruct on as [c|]; cbn [olist map concat]; [|reflexivity].
    rewrite app_nil_r, (shaped_size _ _ _ _ _ (Hs c eq_refl)). reflexivity.
  - cbn [a_bits a_values]. intros j c Hg. destruct on as [c'|]; cbn [olist] in Hg.
    + rewrite (getv_push i _ _ c' j H1) in Hg. destruct (N.eqb_spec i j) as [<-|]; [injection Hg as <-; auto|auto].
    + rewrite N.lor_0_r, app_nil_r in Hg. auto.
  - exists (is ++ is'), (outs ++ outs'). cbn [a_red a_values a_ul]. split; [eapply settled_reduce; eassumption|]. split; [|split; [|split; [|split]]].
    + rewrite map_app, H6, D2. replace (i + 1) with (N.succ i) by lia. rewrite range_snoc by assumption.
      rewrite flat_map_app. cbn [flat_map]. rewrite app_nil_r. reflexivity.
    + apply Forall2_app; eapply becomes_mono; [| eassumption | | eassumption]; intros x Hx; rewrite !in_app_iff; auto.
    + rewrite map_app, !concat_app, H8, <- D4. destruct on; cbn; [rewrite app_nil_r|]; reflexivity.
    + rewrite forallb_app, H9, D5. reflexivity.
    + intros Hu. apply andb_prop in Hu. rewrite !clones_app, H10, D6 by apply Hu. unfold clones. cbn. rewrite He. reflexivity.
Qed.

Lemma inv_skip lo i tr a : lo <= i -> getv bits values i = None -> inv lo i tr a -> inv lo (i + 1) tr a.
Proof.
  intros Hlo Hg (H1 & H2 & H3 & H4 & is & outs & H5 & H6 & H7 & H8 & H9 & H10). split; [apply (okv_mono i); [lia|assumption]|].
  split; [assumption|]. split; [assumption|]. split; [assumption|]. exists is, outs. split; [assumption|]. split; [|auto].
  rewrite H6. replace (i + 1) with (N.succ i) by lia. rewrite range_snoc by assumption.
  rewrite flat_map_app. cbn [flat_map]. unfold slot at 3. rewrite Hg. cbn. rewrite !app_nil_r. reflexivity.
Qed.

Lemma apush_ends lo i tr t a c r u : lo <= i -> i < max_ones fw -> inv lo i tr a -> done (slot i) (Some c) r u t ->
  shapedS (d + 1) (p + i * 2 ^ off d) c ->
  gs good (apush red a i c (m_size c) r) (ends [] (fun t' a' => inv lo (i + 1) (tr ++ t ++ t') (if u then a' else set_ul a'))).
Proof.
  intros Hlo Hi HI HD Hs. unfold apush. apply (ends_lift _ _ (2 ^ i)); [rewrite nth_bit_ok by assumption; reflexivity|].
  assert (Hb : N.testbit (a_bits a) i = false) by (apply (okv_testbit_ge i _ (a_values a)); [apply HI|lia]).
  apply (ends_lift _ _ (N.lor (a_bits a) (2 ^ i))); [rewrite bit_insert_pow2, Hb; reflexivity|].
  apply (ends_prim [] _ _ _ _ (Hred _ _)). intros r' e He Hr. apply ends_ret. rewrite app_nil_r.
  pose proof (inv_push lo i tr t a (Some c) r u e r' Hlo Hi HI HD) as H. cbn [olist] in H. specialize (H ltac:(intros ? [= <-]; assumption) Hr).
  destruct u; [rewrite andb_true_r in H; exact H|rewrite andb_false_r in H; exact H].
Qed.

Lemma apush_new_ends lo i tr t a n u : lo <= i -> i < max_ones fw -> inv lo i tr a -> done (slot i) (nnode n) (nred n) u t ->
  (forall c, nnode n = Some c -> shapedS (d + 1) (p + i * 2 ^ off d) c) ->
  gs good (apush_new red a i n) (ends [] (fun t' a' => inv lo (i + 1) (tr ++ t ++ t') (if u then a' else set_ul a'))).
Proof.
  intros Hlo Hi HI HD Hs. destruct n as [c r|l r|s r|r]; cbn [nnode nred] in *; cbn [apush_new].
  - apply (apush_ends lo i tr t a (MC c) r u); auto.
  - apply (apush_ends lo i tr t a (ML l) r u); auto.
  - apply (apush_ends lo i tr t a (MS s) r u); auto.
  - apply (ends_prim [] _ _ _ _ (Hred _ _)). intros r' e He Hr. apply ends_ret. rewrite app_nil_r.
    pose proof (inv_push lo i tr t a None r u e r' Hlo Hi HI HD ltac:(discriminate) Hr) as H. cbn [olist] in H.
    rewrite N.lor_0_r, N.add_0_r, app_nil_r in H.
    destruct u; [rewrite andb_true_r in H; exact H|rewrite andb_false_r in H; exact H].
Qed.

Context (step : acc S X R -> N -> prog A (acc S X R)).
Context (Hstep : forall lo i tr a, lo <= i -> i < max_ones fw -> Forall good tr -> inv lo i tr a ->
  gs good (step a i) (ends (oback (getv bits values i)) (fun t a' => inv lo (i + 1) (tr ++ t) a'))).

Lemma eloop_ends n : forall lo i tr a, lo <= i -> i + N.of_nat n <= max_ones fw -> Forall good tr -> inv lo i tr a ->
  gs good (eloop step (range i (i + N.of_nat n)) a)
    (ends (flat_map (fun j => oback (getv bits values j)) (range i (i + N.of_nat n))) (fun t a' => inv lo (i + N.of_nat n) (tr ++ t) a')).
Proof.
  induction n as [|n IH]; intros lo i tr a Hlo Hi Ht HI.
  - rewrite N.add_0_r, range_nil. cbn [eloop flat_map]. apply ends_ret. rewrite app_nil_r. assumption.
  - replace (i + N.of_nat (Datatypes.S n)) with (N.succ i + N.of_nat n) by lia. rewrite range_cons by lia. cbn [eloop flat_map].
    eapply ends_bind; [apply (Hstep lo i tr a); auto; lia|]. intros t a' Hg HI'. cbn beta in HI'.
    replace (i + 1) with (N.succ i) in HI' by lia.
    eapply ends_weak; [apply (IH lo (N.succ i) (tr ++ t) a'); [lia|lia|apply Forall_app; auto|assumption]|].
    intros t' y _ H. rewrite app_assoc. assumption.
Qed.

Lemma aloop_ends lo hi : lo <= hi -> hi <= max_ones fw ->
  gs good (aloop def step (range lo hi)) (ends (flat_map (fun j => oback (getv bits values j)) (range lo hi)) (fun t a => inv lo hi t a)).
Proof.
  intros H1 H2. unfold aloop. change (flat_map (fun j => oback (getv bits values j)) (range lo hi)) with ([] ++ flat_map (fun j => oback (getv bits values j)) (range lo hi)).
  eapply (ends_bind [] _ _ _ (fun t r => exists e, t = [e] /\ see e = ItDefault r)).
  - eapply gs_weak; [exact Hdef|]. intros t o [H Ho]. exists []. rewrite app_nil_r. split; [assumption|]. destruct o; auto.
  - intros t r Ht (e & -> & He). pose proof (eloop_ends (N.to_nat (hi - lo)) lo lo [e] (acc0 r) ltac:(lia) ltac:(lia) Ht (inv_start _ _ _ He)) as H.
    replace (lo + N.of_nat (N.to_nat (hi - lo))) with hi in H by lia. exact H.
Qed.

Lemma arun_ends st :
  gs good (arun_loop def red st step) (ends (back (MC (BIA bits values 0))) (fun t a => inv 0 (max_ones fw) t a)).
Proof.
  rewrite (back_C _ _ _ Hok). destruct st; cbn [arun_loop]; [apply aloop_ends; lia|]. unfold ahalves. fold half. pose proof half_le as Hh.
  rewrite range_half, flat_map_app. eapply ends_bind; [apply aloop_ends; lia|]. intros t1 l Ht1 HL. cbn beta in HL.
  rewrite <- (app_nil_r (flat_map _ (range half _))). eapply ends_bind; [apply aloop_ends; lia|]. intros t2 r Ht2 HR. cbn beta in HR.
  destruct HL as (L1 & L2 & L3 & L4 & is & outs & L5 & L6 & L7 & L8 & L9 & L10). destruct HR as (R1 & R2 & R3 & R4 & is' & outs' & R5 & R6 & R7 & R8 & R9 & R10).
  assert (Hland : N.land (a_bits l) (a_bits r) = 0) by (eapply disjoint_land; eassumption).
  apply (ends_lift _ _ (N.lor (a_bits l) (a_bits r))).
  { unfold bit_merge. rewrite Hland. reflexivity. }
  apply (ends_prim [] _ _ _ _ (Hred _ _)). intros x e He Hx. apply ends_ret. rewrite app_nil_r.
  split; [|split; [|split; [|split]]]; cbn [a_bits a_values a_size a_red a_ul].
  - eapply okv_merge; eassumption.
  - intros j Hj. lia.
  - rewrite map_app, concat_app, lenN_app, L3, R3. reflexivity.
  - intros j c Hg. rewrite (getv_merge half (max_ones fw)) in Hg by assumption. destruct (j <? half); auto.
  - exists (is ++ is'), (outs ++ outs'). split; [eapply settled_reduce; eassumption|]. split; [|split; [|split; [|split]]].
    + rewrite map_app, L6, R6, range_half, flat_map_app. reflexivity.
    + apply Forall2_app; eapply becomes_mono; [| eassumption | | eassumption]; intros y Hy; rewrite !in_app_iff; auto.
    + rewrite map_app, !concat_app, L8, R8. reflexivity.
    + rewrite forallb_app, L9, R9. reflexivity.
    + intros Hu. apply andb_prop in Hu. rewrite !clones_app, L10, R10 by apply Hu. unfold clones. cbn. rewrite Hx. reflexivity.
Qed.

(** The node built from the loop. *)
Lemma finish_shaped lo tr a : inv lo (max_ones fw) tr a -> exists n, finish a = Ret n /\ nred n = a_red a /\
  ovisit (nnode n) = concat (map m_visit (a_values a)) /\ (forall n', nnode n = Some n' -> shapedS d p n').
Proof.
  intros (H1 & _ & H3 & H4 & _). unfold finish.
  assert (Hbig : a_values a <> [] -> exists n, (let* b := unwrap_ok (new_bia (a_bits a) (a_values a) (a_size a)) in Ret (NRC b (a_red a))) = Ret n /\
    nred n = a_red a /\ ovisit (nnode n) = concat (map m_visit (a_values a)) /\ (forall n', nnode n = Some n' -> shapedS d p n')).
  { intros Hne. rewrite (new_bia_ok fw) by assumption. cbn [unwrap_ok bind]. eexists. split; [reflexivity|]. split; [reflexivity|]. split; [reflexivity|].
    intros n' [= <-]. constructor; auto. }
  assert (Hone : forall n, a_values a = [n] -> leafy n -> shapedS d p n).
  { intros n Hn Hl. destruct (in_values_get _ _ _ n H1) as (j & _ & Hj); [rewrite Hn; left; reflexivity|].
    specialize (H4 j n Hj). inversion H4; subst; [| |contradiction].
    - constructor. eapply Hup; eassumption.
    - constructor; [assumption|]. eapply Hup; eassumption. }
  assert (Hlf : forall n, a_values a = [n] -> match n with MC _ => True | _ => leafy n end).
  { intros n Hn. destruct (in_values_get _ _ _ n H1) as (j & _ & Hj); [rewrite Hn; left; reflexivity|].
    specialize (H4 j n Hj). inversion H4; subst; cbn; auto. }
  destruct (a_values a) as [|n0 vs] eqn:Hv.
  - eexists. split; [reflexivity|]. split; [reflexivity|]. split; [reflexivity|]. discriminate.
  - destruct n0 as [c|l0|s0]; destruct vs as [|n1 vs]; try (apply Hbig; discriminate).
    + eexists. split; [reflexivity|]. split; [reflexivity|]. split; [cbn; rewrite app_nil_r; reflexivity|].
      intros n' [= <-]. apply Hone; [reflexivity|]. apply (Hlf (ML l0) eq_refl).
    + eexists. split; [reflexivity|]. split; [reflexivity|]. split; [reflexivity|].
      intros n' [= <-]. apply Hone; [reflexivity|exact I].
Qed.

End Loop.
End Generic.
