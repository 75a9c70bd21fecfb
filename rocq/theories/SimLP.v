(** Two runs side by side, one with constants: one map, and leaves of two. *)
From Coq Require Import NArith Arith List Bool Lia ZifyBool ZifyN ZifyNat.
From Verif Require Import Base Words WordsP Flag Bia BiaP Node Inv Api Trans Transform Joint JointT Profile Eff EffP EffApi Ask AskP AskT AskJ LoopP SpecConst SimP.
Import ListNotations.
Open Scope N_scope.

Section Sim.
Context {E : Env} {Q : Type} {A : Q -> Type} (keep soft : Q -> bool) (fair : event (A := A) -> Prop).
Notation sim := (sim keep soft fair).
Notation idle := (idle keep fair).
Notation tlike := (tlike keep soft fair).
Notation mlike := (mlike keep soft fair).
Context {R : Type} (def : prog A R) (red : R -> R -> prog A R).
Context (Hdef : sim any2 def def) (Hdefi : R -> idle def any).
Context (Hred : forall x y x1 y1, sim any2 (red x y) (red x1 y1)) (Hredi : forall x y, idle (red x y) any).

(** * One map *)
Section One.
Context {K V : Type} (ck : K -> prog A K) (cv : V -> prog A V).
Context (Hck : forall k, sim eq (ck k) (ck k)) (Hcv : forall v, sim eq (cv v) (cv v)).

Ltac clones :=
  repeat match goal with
  | |- SimP.sim _ _ _ _ (pbind (ck _) _) _ => eapply sim_bind; [apply Hck|]; intros ? ? <-
  | |- SimP.sim _ _ _ _ (pbind (cv _) _) _ => eapply sim_bind; [apply Hcv|]; intros ? ? <-
  | |- SimP.sim _ _ _ _ (pbind (red _ _) _) _ => eapply sim_bind; [apply Hred|]; intros ? ? _
  end; try (apply sim_ret; cbn; auto).

Lemma as_transform_sim (op op1 : etransform A (K * V) V R) (s : snode K V) : tlike op op1 -> sim trel (as_transform ck op s) (as_transform ck op1 s).
Proof.
  intros H. unfold as_transform. eapply sim_bind; [apply etcall_sim, H|]. intros o ? <-. destruct o; clones.
Qed.
Lemma al_result_sim (l : lnode K V) o t t1 : trel t t1 -> sim trel (al_transform_result red ck cv l o t) (al_transform_result red ck cv l o t1).
Proof.
  intros H. destruct o as [r|v r|r]; destruct t as [|[]], t1 as [|[]]; cbn [trel nrel] in H; try contradiction; subst; cbn [al_transform_result]; clones.
  destruct (l_next l); cbn; reflexivity.
Qed.
(** Every entry is told, and everything stays or goes. *)
Lemma al_idle_keep r f (l : lnode K V) : (forall i, idle (f i) (eq (VUnchanged r))) -> idle (al_transform red ck cv (EGeneric f) l) (trel (TU r)).
Proof.
  intros H. induction l as [k v n IH z|k v s z]; cbn [al_transform l_key l_value l_next].
  - eapply idle_bind; [exact IH|]. intros [r'|] Ht; [|contradiction]. eapply idle_bind; [apply H|]. intros ? <-. cbn [al_transform_result].
    eapply idle_bind; [apply Hredi|]. intros z' _. apply idle_ret. exact I.
  - eapply idle_bind with (P := trel (TU r)).
    + unfold as_transform. eapply idle_bind; [apply H|]. intros ? <-. apply idle_ret. exact I.
    + intros [r'|] Ht; [|contradiction]. eapply idle_bind; [apply H|]. intros ? <-. cbn [al_transform_result].
      eapply idle_bind; [apply Hredi|]. intros z' _. apply idle_ret. exact I.
Qed.
Lemma al_idle_drop r f (l : lnode K V) : (forall i, idle (f i) (eq (VDropped r))) -> idle (al_transform red ck cv (EGeneric f) l) (trel (TN (NRZ r))).
Proof.
  intros H. induction l as [k v n IH z|k v s z]; cbn [al_transform l_key l_value l_next].
  - eapply idle_bind; [exact IH|]. intros [r'|[]] Ht; try contradiction. eapply idle_bind; [apply H|]. intros ? <-. cbn [al_transform_result].
    eapply idle_bind; [apply Hredi|]. intros z' _. apply idle_ret. exact I.
  - eapply idle_bind with (P := trel (TN (NRZ r))).
    + unfold as_transform. eapply idle_bind; [apply H|]. intros ? <-. apply idle_ret. exact I.
    + intros [r'|[]] Ht; try contradiction. eapply idle_bind; [apply H|]. intros ? <-. cbn [al_transform_result].
      eapply idle_bind; [apply Hredi|]. intros z' _. apply idle_ret. exact I.
Qed.
Lemma al_transform_sim op op1 (l : lnode K V) : tlike op op1 -> sim trel (al_transform red ck cv op l) (al_transform red ck cv op1 l).
Proof.
  intros H. pose proof H as H'. destruct H' as [f Hf|r f Hf|r f Hf].
  - induction l as [k v n IH z|k v s z]; cbn [al_transform l_key l_value l_next].
    + eapply sim_bind; [exact IH|]. intros t t1 Ht. eapply sim_bind; [apply etcall_sim, H|]. intros o ? <-. apply al_result_sim, Ht.
    + eapply sim_bind; [apply as_transform_sim, H|]. intros t t1 Ht. eapply sim_bind; [apply etcall_sim, H|]. intros o ? <-. apply al_result_sim, Ht.
  - replace (al_transform red ck cv (EUnchanged r) l) with (PRet (A := A) (TU (K := K) (V := V) r)) by (destruct l; reflexivity).
    apply sim_idle, al_idle_keep, Hf.
  - replace (al_transform red ck cv (ERemoved r) l) with (PRet (A := A) (TN (NRZ (K := K) (V := V) r))) by (destruct l; reflexivity).
    apply sim_idle, al_idle_drop, Hf.
Qed.
Lemma an_transform_sim op op1 (n : lnext K V) : tlike op op1 -> sim trel (an_transform red ck cv op n) (an_transform red ck cv op1 n).
Proof. intros H. destruct n; cbn [an_transform]; [apply al_transform_sim, H|apply as_transform_sim, H]. Qed.
End One.

Section OneM.
Context {K V S X : Type}.
Lemma as_transmute_sim (op op1 : etransmute A (K * V) S X R) (s : snode K V) : mlike op op1 -> sim (nrel (K := S) (V := X)) (as_transmute op s) (as_transmute op1 s).
Proof.
  intros H. unfold as_transmute. eapply sim_bind; [apply emcall_sim, H|]. intros o ? <-. apply sim_ret. destruct o; cbn; auto.
Qed.
Lemma al_mresult_sim (o : kres S X R) t t1 : nrel t t1 -> sim nrel (al_transmute_result red o t) (al_transmute_result red o t1).
Proof.
  intros H. destruct o as [k v r|r]; destruct t, t1; cbn [nrel] in H; try contradiction; subst; cbn [al_transmute_result];
    (eapply sim_bind; [apply Hred|]; intros ? ? _; apply sim_ret; cbn; auto).
Qed.
Lemma al_idle_mdrop r (f : K * V -> prog A (kres S X R)) (l : lnode K V) : (forall i, idle (f i) (eq (KDropped r))) -> idle (al_transmute red (EMGeneric f) l) (nrel (NRZ r)).
Proof.
  intros H. induction l as [k v n IH z|k v s z]; cbn [al_transmute l_key l_value l_next].
  - eapply idle_bind; [exact IH|]. intros [] Ht; try contradiction. eapply idle_bind; [apply H|]. intros ? <-. cbn [al_transmute_result].
    eapply idle_bind; [apply Hredi|]. intros z' _. apply idle_ret. exact I.
  - eapply idle_bind with (P := nrel (NRZ r)).
    + unfold as_transmute. eapply idle_bind; [apply H|]. intros ? <-. apply idle_ret. exact I.
    + intros [] Ht; try contradiction. eapply idle_bind; [apply H|]. intros ? <-. cbn [al_transmute_result].
      eapply idle_bind; [apply Hredi|]. intros z' _. apply idle_ret. exact I.
Qed.
Lemma al_transmute_sim op op1 (l : lnode K V) : mlike op op1 -> sim (nrel (K := S) (V := X)) (al_transmute red op l) (al_transmute red op1 l).
Proof.
  intros H. pose proof H as H'. destruct H' as [f Hf|r f Hf].
  - induction l as [k v n IH z|k v s z]; cbn [al_transmute l_key l_value l_next].
    + eapply sim_bind; [exact IH|]. intros t t1 Ht. eapply sim_bind; [apply emcall_sim, H|]. intros o ? <-. apply al_mresult_sim, Ht.
    + eapply sim_bind; [apply as_transmute_sim, H|]. intros t t1 Ht. eapply sim_bind; [apply emcall_sim, H|]. intros o ? <-. apply al_mresult_sim, Ht.
  - replace (al_transmute red (EMRemoved r) l) with (PRet (A := A) (NRZ (K := S) (V := X) r)) by (destruct l; reflexivity).
    apply sim_idle, al_idle_mdrop, Hf.
Qed.
Lemma an_transmute_sim op op1 (n : lnext K V) : mlike op op1 -> sim (nrel (K := S) (V := X)) (an_transmute red op n) (an_transmute red op1 n).
Proof. intros H. destruct n; cbn [an_transmute]; [apply al_transmute_sim, H|apply as_transmute_sim, H]. Qed.
End OneM.

(** ** Loops *)
Section Loops.
Context {K V : Type}.
Implicit Types a : acc K V R.
Lemma apush_sim a a1 i n z r r1 : arel a a1 -> sim arel (apush red a i n z r) (apush red a1 i n z r1).
Proof.
  intros (H1 & H2 & H3 & H4 & H5). unfold apush. eapply sim_bind with (P := eq); [apply sim_lift; destruct (unwrap_ok (nth_bit fw i)); cbn; auto|]. intros bit ? <-.
  rewrite H2. eapply sim_bind with (P := eq); [apply sim_lift; destruct (unwrap_ok (bit_insert (a_bits a1) bit)); cbn; auto|]. intros bits ? <-.
  eapply sim_bind; [apply Hred|]. intros ? ? _. apply sim_ret. split; cbn; [congruence|]. repeat split; congruence.
Qed.
Lemma apush_new_sim a a1 i n n1 : arel a a1 -> nrel n n1 -> sim arel (apush_new red a i n) (apush_new red a1 i n1).
Proof.
  intros Ha Hn. destruct n, n1; cbn [nrel] in Hn; try contradiction; subst; cbn [apush_new]; try (apply apush_sim, Ha).
  eapply sim_bind; [apply Hred|]. intros ? ? _. apply sim_ret. exact Ha.
Qed.
Lemma set_ul_rel a a1 : arel a a1 -> arel (set_ul a) (set_ul a1).
Proof. intros (H1 & H2 & H3 & H4 & H5). destruct a, a1; cbn in *. repeat split; assumption. Qed.
Lemma set_ur_rel a a1 : arel a a1 -> arel (set_ur a) (set_ur a1).
Proof. intros (H1 & H2 & H3 & H4 & H5). destruct a, a1; cbn in *. repeat split; assumption. Qed.

Section Step.
Context (step step1 : acc K V R -> N -> prog A (acc K V R)).
Context (Hstep : forall a a1 i, i < max_ones fw -> arel a a1 -> sim arel (step a i) (step1 a1 i)).
Lemma eloop_sim l : (forall i, In i l -> i < max_ones fw) -> forall a a1, arel a a1 -> sim arel (eloop step l a) (eloop step1 l a1).
Proof.
  induction l as [|i l IH]; intros Hl a a1 Ha; cbn [eloop]; [apply sim_ret, Ha|]. eapply sim_bind; [apply Hstep; [apply Hl; left; reflexivity|exact Ha]|].
  intros b b1 Hb. apply IH; [intros j Hj; apply Hl; right; exact Hj|exact Hb].
Qed.
Lemma aloop_sim lo hi : hi <= max_ones fw -> sim arel (aloop def step (range lo hi)) (aloop def step1 (range lo hi)).
Proof.
  intros Hhi. unfold aloop. eapply sim_bind; [apply Hdef|]. intros r r1 _. apply eloop_sim; [|repeat split]. intros i Hi. apply range_in in Hi. lia.
Qed.
Lemma arun_sim st : sim arel (arun_loop def red st step) (arun_loop def red st step1).
Proof.
  destruct st; cbn [arun_loop]; [apply aloop_sim; lia|]. unfold ahalves. fold half. pose proof half_le as Hh.
  eapply sim_bind; [apply aloop_sim; lia|]. intros l l1 (L1 & L2 & L3 & L4 & L5). eapply sim_bind; [apply aloop_sim; lia|]. intros r r1 (R1 & R2 & R3 & R4 & R5).
  rewrite L2, R2. eapply sim_bind with (P := eq); [apply sim_lift; destruct (unwrap_ok (bit_merge (a_bits l1) (a_bits r1))); cbn; auto|]. intros bits ? <-.
  eapply sim_bind; [apply Hred|]. intros ? ? _. apply sim_ret. repeat split; cbn; congruence.
Qed.
End Step.

Lemma finish_rel a a1 : arel a a1 -> orel nrel (finish a) (finish a1).
Proof.
  intros (H1 & H2 & H3 & H4 & H5). unfold finish. rewrite H1, H2, H3.
  assert (Hbig : orel nrel (let* b := unwrap_ok (new_bia (a_bits a1) (a_values a1) (a_size a1)) in Ret (NRC b (a_red a)))
    (let* b := unwrap_ok (new_bia (a_bits a1) (a_values a1) (a_size a1)) in Ret (NRC b (a_red a1)))) by (destruct (unwrap_ok _); cbn; auto).
  destruct (a_values a1) as [|[] []]; try exact Hbig; cbn; auto.
Qed.

(** All stays. *)
Definition uinv (lo i : N) (a : acc K V R) : Prop :=
  okv i (a_bits a) (a_values a) /\ (forall j, j < lo -> N.testbit (a_bits a) j = false) /\ a_ul a = true.
(** All goes; [has i]: there was something at [i]. *)
Definition zinv (has : N -> Prop) (lo i : N) (a : acc K V R) : Prop :=
  a_values a = [] /\ a_bits a = 0 /\ ((exists j, lo <= j /\ j < i /\ has j) -> a_ul a = false).

Lemma eloop_idle (inv : N -> acc K V R -> Prop) step n : (forall i a, i < max_ones fw -> inv i a -> idle (step a i) (inv (i + 1))) ->
  forall i a, i + N.of_nat n <= max_ones fw -> inv i a -> idle (eloop step (range i (i + N.of_nat n)) a) (inv (i + N.of_nat n)).
Proof.
  intros Hs. induction n as [|n IH]; intros i a Hi HI.
  - rewrite N.add_0_r, range_nil. apply idle_ret. exact HI.
  - replace (i + N.of_nat (Datatypes.S n)) with (N.succ i + N.of_nat n) by lia. rewrite range_cons by lia. cbn [eloop].
    eapply idle_bind; [apply Hs; [lia|exact HI]|]. intros a' HI'. replace (i + 1) with (N.succ i) in HI' by lia. apply IH; [lia|exact HI'].
Qed.
Lemma aloop_idle (inv : N -> acc K V R -> Prop) step lo hi (r : R) : lo <= hi -> hi <= max_ones fw -> (forall z, inv lo (acc0 z)) ->
  (forall i a, lo <= i -> i < max_ones fw -> inv i a -> idle (step a i) (inv (i + 1))) -> idle (aloop def step (range lo hi)) (inv hi).
Proof.
  intros H1 H2 H0 Hs. unfold aloop. eapply idle_bind; [apply Hdefi, r|]. intros z _.
  pose proof (eloop_idle (fun i a => lo <= i /\ inv i a) step (N.to_nat (hi - lo))) as H.
  specialize (H ltac:(intros i a Hi [G1 G2]; eapply idle_weak; [apply Hs; assumption|]; intros b Hb; split; [lia|exact Hb]) lo (acc0 z)).
  replace (lo + N.of_nat (N.to_nat (hi - lo))) with hi in H by lia. eapply idle_weak; [apply H; [lia|split; [lia|apply H0]]|]. intros b [_ Hb]. exact Hb.
Qed.
Lemma arun_idle_keep st step (r : R) : (forall lo i a, lo <= i -> i < max_ones fw -> uinv lo i a -> idle (step a i) (uinv lo (i + 1))) ->
  idle (arun_loop def red st step) (fun a => a_ul a = true).
Proof.
  intros Hs. assert (Hl : forall lo hi, lo <= hi -> hi <= max_ones fw -> idle (aloop def step (range lo hi)) (uinv lo hi)).
  { intros lo hi H1 H2. apply (aloop_idle (uinv lo)); [exact r|assumption|assumption|..].
    - intros z. split; [apply okv_nil|]. split; [intros; apply N.bits_0|reflexivity].
    - intros i a. apply Hs. }
  destruct st; cbn [arun_loop].
  - eapply idle_weak; [apply Hl; lia|]. intros a (_ & _ & H). exact H.
  - unfold ahalves. fold half. pose proof half_le as Hh. eapply idle_bind; [apply Hl; lia|]. intros x (L1 & L2 & L3).
    eapply idle_bind; [apply Hl; lia|]. intros y (R1 & R2 & R3).
    assert (Hland : N.land (a_bits x) (a_bits y) = 0) by exact (disjoint_land half (a_bits x) (a_values x) (a_bits y) (a_values y) L1 R2).
    unfold bit_merge. rewrite Hland. cbn [N.eqb negb unwrap_ok lift pbind]. eapply idle_bind; [apply Hredi|]. intros z _. apply idle_ret. cbn. rewrite L3, R3. reflexivity.
Qed.
Lemma arun_idle_drop has st step (r : R) : (forall lo i a, lo <= i -> i < max_ones fw -> zinv has lo i a -> idle (step a i) (zinv has lo (i + 1))) ->
  idle (arun_loop def red st step) (zinv has 0 (max_ones fw)).
Proof.
  intros Hs. assert (Hl : forall lo hi, lo <= hi -> hi <= max_ones fw -> idle (aloop def step (range lo hi)) (zinv has lo hi)).
  { intros lo hi H1 H2. apply (aloop_idle (zinv has lo)); [exact r|assumption|assumption|..].
    - intros z. split; [reflexivity|]. split; [reflexivity|]. intros (j & G1 & G2 & _). lia.
    - intros i a. apply Hs. }
  destruct st; cbn [arun_loop]; [apply Hl; lia|]. unfold ahalves. fold half. pose proof half_le as Hh.
  eapply idle_bind; [apply Hl; lia|]. intros x (L1 & L2 & L3). eapply idle_bind; [apply Hl; lia|]. intros y (R1 & R2 & R3).
  unfold bit_merge. rewrite L2, R2. cbn [N.land N.eqb negb unwrap_ok lift pbind]. eapply idle_bind; [apply Hredi|]. intros z _. apply idle_ret.
  unfold zinv. cbn. rewrite L1, R1. split; [reflexivity|]. split; [reflexivity|]. intros (j & G1 & G2 & G3). apply andb_false_iff.
  destruct (N.lt_ge_cases j half); [left; apply L3|right; apply R3]; exists j; auto.
Qed.
End Loops.

(** ** Subtrees; not the root, which may be empty *)
Section Tree.
Context {K V : Type} (ck : K -> prog A K) (cv : V -> prog A V).
Context (Hck : forall k, sim eq (ck k) (ck k)) (Hcv : forall v, sim eq (cv v) (cv v)).
Lemma child_some d bits (values : list (mnode K V)) : okv (max_ones fw) bits values -> values <> [] \/ d = 0 -> d <> 0 -> exists j, j < max_ones fw /\ getv bits values j <> None.
Proof.
  intros Hok [Hne|Hd] Hd'; [|contradiction]. destruct values as [|c cs]; [destruct (Hne eq_refl)|].
  destruct (in_values_get _ _ _ c Hok) as (j & Hj & Hg); [left; reflexivity|]. exists j. split; [exact Hj|]. rewrite Hg. discriminate.
Qed.

Lemma am_idle_keep r f st (n : mnode K V) : (forall i, idle (f i) (eq (VUnchanged r))) -> forall d, loose d n ->
  idle (am_transform def red ck cv st (EGeneric f) n) (trel (TU r)).
Proof.
  intros H. induction n as [bits values x IH|l|s] using mnode_ind'; intros d Hs; cbn [am_transform].
  - rewrite Forall_forall in IH. inversion Hs as [| |? ? ? ? Hd Hok Hne Hx Hch]; subst. eapply idle_bind.
    + apply arun_idle_keep; [exact r|]. intros lo i a Hlo Hi (H1 & H2 & H3). unfold ac_transform_step. rewrite bat_bit_index_slot by assumption. cbn [lift pbind].
      destruct (getv bits values i) as [c|] eqn:Hg.
      * pose proof (getv_in _ _ _ _ Hg) as Hc. eapply idle_bind; [exact (IH c Hc _ (Hch c Hc))|]. intros [r'|] Ht; [|contradiction].
        unfold apush. rewrite nth_bit_ok by assumption. cbn [unwrap_ok lift pbind].
        assert (Hb : N.testbit (a_bits a) i = false) by (apply (okv_testbit_ge i _ (a_values a)); [exact H1|lia]).
        rewrite bit_insert_pow2, Hb. cbn [unwrap_ok lift pbind]. eapply idle_bind; [apply Hredi|]. intros z _. apply idle_ret.
        split; [|split]; cbn [a_bits a_values a_ul].
        -- replace (i + 1) with (N.succ i) by lia. apply okv_push. assumption.
        -- intros j Hj. rewrite N.lor_spec, H2 by assumption. rewrite N.pow2_bits_eqb. destruct (N.eqb_spec i j); [lia|reflexivity].
        -- exact H3.
      * apply idle_ret. split; [apply (okv_mono i); [lia|assumption]|]. auto.
    + intros a Ha. rewrite Ha. apply idle_ret. exact I.
  - apply al_idle_keep, H.
  - unfold as_transform. eapply idle_bind; [apply H|]. intros ? <-. apply idle_ret. exact I.
Qed.
Lemma am_idle_drop r f st (n : mnode K V) : (forall i, idle (f i) (eq (VDropped r))) -> forall d, d <> 0 -> loose d n ->
  idle (am_transform def red ck cv st (EGeneric f) n) (trel (TN (NRZ r))).
Proof.
  intros H. induction n as [bits values x IH|l|s] using mnode_ind'; intros d Hd0 Hs; cbn [am_transform].
  - rewrite Forall_forall in IH. inversion Hs as [| |? ? ? ? Hd Hok Hne Hx Hch]; subst. eapply idle_bind.
    + apply (arun_idle_drop (fun j => getv bits values j <> None)); [exact r|]. intros lo i a Hlo Hi (H1 & H2 & H3). unfold ac_transform_step. rewrite bat_bit_index_slot by assumption. cbn [lift pbind].
      destruct (getv bits values i) as [c|] eqn:Hg.
      * pose proof (getv_in _ _ _ _ Hg) as Hc. eapply idle_bind; [exact (IH c Hc (d + 1) ltac:(lia) (Hch c Hc))|]. intros [r'|[]] Ht; try contradiction.
        cbn [apush_new]. eapply idle_bind with (P := fun a' => a_values a' = [] /\ a_bits a' = 0); [eapply idle_bind; [apply Hredi|]; intros z _; apply idle_ret; auto|].
        intros a' [G1 G2]. apply idle_ret. destruct a'. split; [exact G1|]. split; [exact G2|]. reflexivity.
      * apply idle_ret. split; [exact H1|]. split; [exact H2|]. intros (j & G1 & G2 & G3). apply H3. exists j. split; [exact G1|]. split; [|exact G3].
        assert (j <> i) by (intros ->; contradiction). lia.
    + intros a (H1 & H2 & H3). rewrite H3.
      * unfold finish. rewrite H1. cbn. apply idle_ret. exact I.
      * destruct (child_some d bits values Hok Hne Hd0) as (j & G1 & G2). exists j. split; [lia|]. auto.
  - apply al_idle_drop, H.
  - unfold as_transform. eapply idle_bind; [apply H|]. intros ? <-. apply idle_ret. exact I.
Qed.
Lemma am_transform_sim st op op1 (n : mnode K V) : tlike op op1 -> forall d, d <> 0 -> loose d n ->
  sim trel (am_transform def red ck cv st op n) (am_transform def red ck cv st op1 n).
Proof.
  intros H. induction n as [bits values x IH|l|s] using mnode_ind'; intros d Hd0 Hs; pose proof H as H'.
  - destruct H' as [f Hf|r f Hf|r f Hf].
    + cbn [am_transform]. rewrite Forall_forall in IH. inversion Hs as [| |? ? ? ? Hd Hok Hne Hx Hch]; subst. eapply sim_bind.
      * apply arun_sim. intros a a1 i Hi Ha. unfold ac_transform_step. rewrite !bat_bit_index_slot by assumption. cbn [lift pbind].
        destruct (getv bits values i) as [c|] eqn:Hg; [|apply sim_ret, Ha]. pose proof (getv_in _ _ _ _ Hg) as Hc.
        eapply sim_bind; [exact (IH c Hc (d + 1) ltac:(lia) (Hch c Hc))|]. intros [r|t] [r1|t1] Ht; cbn [trel] in Ht; try contradiction.
        -- apply apush_sim, Ha.
        -- eapply sim_bind; [apply apush_new_sim; [exact Ha|exact Ht]|]. intros b b1 Hb. apply sim_ret, set_ul_rel, Hb.
      * intros a a1 Ha. apply sim_lift. pose proof Ha as (H1 & H2 & H3 & H4 & H5). rewrite H4. destruct (a_ul a1); [exact I|].
        pose proof (finish_rel a a1 Ha) as HF. destruct (finish a), (finish a1); cbn in *; auto.
    + apply sim_idle. eapply am_idle_keep; eassumption.
    + apply sim_idle. eapply am_idle_drop; eassumption.
  - cbn [am_transform]. apply al_transform_sim; assumption.
  - cbn [am_transform]. apply as_transform_sim; assumption.
Qed.
End Tree.

Section TreeM.
Context {K V S X : Type}.
Lemma am_idle_mdrop r (f : K * V -> prog A (kres S X R)) (n : mnode K V) : (forall i, idle (f i) (eq (KDropped r))) -> forall d, loose d n ->
  idle (am_transmute def red (EMGeneric f) n) (nrel (NRZ r)).
Proof.
  intros H. induction n as [bits values x IH|l|s] using mnode_ind'; intros d Hs; cbn [am_transmute].
  - rewrite Forall_forall in IH. inversion Hs as [| |? ? ? ? Hd Hok Hne Hx Hch]; subst. eapply idle_bind.
    + apply (aloop_idle (fun _ a => a_values a = [] /\ a_bits a = 0)); [exact r|lia|lia|auto|]. intros i a _ Hi [H1 H2]. unfold ac_transmute_step. rewrite bat_bit_index_slot by assumption. cbn [lift pbind].
      destruct (getv bits values i) as [c|] eqn:Hg; [|apply idle_ret; auto].
      pose proof (getv_in _ _ _ _ Hg) as Hc. eapply idle_bind; [exact (IH c Hc _ (Hch c Hc))|]. intros [] Ht; try contradiction.
      cbn [apush_new]. eapply idle_bind; [apply Hredi|]. intros z _. apply idle_ret. auto.
    + intros a (H1 & H2). unfold finish. rewrite H1, H2. cbn. apply idle_ret. exact I.
  - apply al_idle_mdrop, H.
  - unfold as_transmute. eapply idle_bind; [apply H|]. intros ? <-. apply idle_ret. exact I.
Qed.
Lemma am_transmute_sim op op1 (n : mnode K V) : mlike op op1 -> forall d, loose d n ->
  sim (nrel (K := S) (V := X)) (am_transmute def red op n) (am_transmute def red op1 n).
Proof.
  intros H. induction n as [bits values x IH|l|s] using mnode_ind'; intros d Hs; pose proof H as H'.
  - destruct H' as [f Hf|r f Hf].
    + cbn [am_transmute]. rewrite Forall_forall in IH. inversion Hs as [| |? ? ? ? Hd Hok Hne Hx Hch]; subst. eapply sim_bind.
      * apply aloop_sim; [|lia]. intros a a1 i Hi Ha. unfold ac_transmute_step. rewrite !bat_bit_index_slot by assumption. cbn [lift pbind].
        destruct (getv bits values i) as [c|] eqn:Hg; [|apply sim_ret, Ha]. pose proof (getv_in _ _ _ _ Hg) as Hc.
        eapply sim_bind; [exact (IH c Hc _ (Hch c Hc))|]. intros t t1 Ht. apply apush_new_sim; assumption.
      * intros a a1 Ha. apply sim_lift. pose proof Ha as (H1 & H2 & H3 & H4 & H5). rewrite H2, H3. destruct (_ =? _); [|exact I]. apply finish_rel, Ha.
    + apply sim_idle. eapply am_idle_mdrop; eassumption.
  - cbn [am_transmute]. apply al_transmute_sim; assumption.
  - cbn [am_transmute]. apply as_transmute_sim; assumption.
Qed.
End TreeM.
End Sim.
