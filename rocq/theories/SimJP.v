(** Two runs side by side, one with constants: the leaves of two maps and the
    traversals. *)
From Coq Require Import NArith Arith List Bool Lia ZifyBool ZifyN ZifyNat.
From Verif Require Import Base Words WordsP Flag Bia BiaP Node Inv Api Trans Transform Joint JointT Profile Eff EffP EffApi Ask AskP AskT AskJ LoopP SpecConst SimP SimLP.
Import ListNotations.
Open Scope N_scope.

(** The keys' code is the same in both runs. *)
Record ksim {E : Env} {Q : Type} {A : Q -> Type} (keep soft : Q -> bool) (fair : event (A := A) -> Prop) {K L} (ky : keyed A K L) : Prop := {
  ks_hash : forall k, sim keep soft fair eq (ky_hash ky k) (ky_hash ky k);
  ks_hash' : forall k, sim keep soft fair eq (ky_hash' ky k) (ky_hash' ky k);
  ks_eq : forall k l, sim keep soft fair eq (ky_eq ky k l) (ky_eq ky k l);
  ks_eq' : forall k l, sim keep soft fair eq (ky_eq' ky k l) (ky_eq' ky k l)
}.
Lemma ksim_flip {E : Env} {Q : Type} {A : Q -> Type} (keep soft : Q -> bool) (fair : event (A := A) -> Prop) {K L} (ky : keyed A K L) : ksim keep soft fair ky -> ksim keep soft fair (ky_flip ky).
Proof. intros [H1 H2 H3 H4]. constructor; assumption. Qed.

Section Sim.
Context {E : Env} {Q : Type} {A : Q -> Type} (keep soft : Q -> bool) (fair : event (A := A) -> Prop).
Notation sim := (sim keep soft fair).
Notation idle := (idle keep fair).
Notation tlike := (tlike keep soft fair).
Notation mlike := (mlike keep soft fair).
Notation ksim := (ksim keep soft fair).
Context {R : Type} (def : prog A R) (red : R -> R -> prog A R).
Context (Hdef : sim any2 def def) (Hdefi : R -> idle def any).
Context (Hred : forall x y x1 y1, sim any2 (red x y) (red x1 y1)) (Hredi : forall x y, idle (red x y) any).

Lemma sim_lift_eq {X} (o : outcome X) : sim eq (lift o) (lift o).
Proof. apply sim_lift. destruct o; cbn; auto. Qed.
Lemma aposition_sim {B} (p : B -> prog A bool) l : (forall b, sim eq (p b) (p b)) -> sim eq (aposition p l) (aposition p l).
Proof.
  intros H. induction l as [|b l IH]; cbn [aposition]; [apply sim_ret; reflexivity|]. eapply sim_bind; [apply H|]. intros yes ? <-.
  destruct yes; [apply sim_ret; reflexivity|]. eapply sim_bind; [exact IH|]. intros o ? <-. apply sim_ret. reflexivity.
Qed.
Lemma atake_sim {L W} (eq0 : L -> prog A bool) (rights : list (L * W)) : (forall b, sim eq (eq0 b) (eq0 b)) -> sim eq (atake_key eq0 rights) (atake_key eq0 rights).
Proof. intros H. unfold atake_key. eapply sim_bind; [apply aposition_sim; intros b; apply H|]. intros o ? <-. apply sim_ret. reflexivity. Qed.
Lemma apair_sim {K V} (a : mnode K V) lf b rf x y x1 y1 : sim nrel (apair red a lf b rf x y) (apair red a lf b rf x1 y1).
Proof.
  unfold apair. eapply sim_bind; [apply sim_lift_eq|]. intros c ? <-. eapply sim_bind; [apply Hred|]. intros ? ? _. apply sim_ret. reflexivity.
Qed.
(** Results with the list that was left. *)
Definition with_eq {X Y Z} (P : X -> Y -> Prop) (x : X * Z) (y : Y * Z) : Prop := P (fst x) (fst y) /\ snd x = snd y.

Ltac lone := apply sim_lift_eq.
Ltac reds :=
  repeat match goal with
  | |- SimP.sim _ _ _ _ (pbind (red _ _) _) _ => eapply sim_bind; [apply Hred|]; intros ? ? _
  | H : forall k, SimP.sim _ _ _ eq (?c k) (?c k) |- SimP.sim _ _ _ _ (pbind (?c _) _) _ => eapply sim_bind; [apply H|]; intros ? ? <-
  end; try (apply sim_ret; cbn; auto using n_with_rel, t_with_rel, n_cons_rel, t_cons_rel).

(** * transform_with_transmuted *)
Section TM.
Context {K V L W : Type} (ck : K -> prog A K) (cv : V -> prog A V) (ky : keyed A K L).
Context (Hck : forall k, sim eq (ck k) (ck k)) (Hcv : forall v, sim eq (cv v) (cv v)) (Hky : ksim ky).
Context (both both1 : etransform A ((K * V) * (L * W)) V R) (lop lop1 : etransform A (K * V) V R) (rop rop1 : etransmute A (L * W) K V R).
Context (Hb : tlike both both1) (Hl : tlike lop lop1) (Hr : mlike rop rop1).

Lemma atm_apart_sim this right h h' d : sim trel (atm_apart red ck cv lop rop this right h h' d) (atm_apart red ck cv lop1 rop1 this right h h' d).
Proof.
  unfold atm_apart. eapply sim_bind; [apply an_transform_sim; eassumption|]. intros l l1 HL. eapply sim_bind; [apply an_transmute_sim; eassumption|]. intros r r1 HR.
  eapply sim_bind; [lone|]. intros [lf rf] ? <-. rewrite (tout_rel _ _ _ HL), (nnode_rel _ _ HR).
  destruct (tout _ l1), (nnode r1); reds. eapply sim_bind; [apply apair_sim|]. intros n n1 Hn. reds.
Qed.
Lemma atm_s_impl_sim this right : sim trel (atm_s_impl red ck ky both lop rop this right) (atm_s_impl red ck ky both1 lop1 rop1 this right).
Proof.
  unfold atm_s_impl. eapply sim_bind; [apply (ks_eq _ _ _ _ Hky)|]. intros [] ? <-.
  - eapply sim_bind; [apply etcall_sim, Hb|]. intros o ? <-. destruct o; reds.
  - eapply sim_bind; [apply etcall_sim, Hl|]. intros o ? <-. eapply sim_bind; [apply emcall_sim, Hr|]. intros o' ? <-. destruct o, o'; reds.
Qed.
Lemma atm_l_impl_sim this : forall rights, sim (with_eq trel) (atm_l_impl red ck cv ky both lop rop this rights) (atm_l_impl red ck cv ky both1 lop1 rop1 this rights).
Proof.
  assert (Htail : forall l next next1 rights, trel next next1 ->
    sim (with_eq trel) (let+ o := atake_key (ky_eq ky (l_key l)) rights in
      let+ (result, rights) := match o with
        | Some (e, rights) => let+ o := etcall both ((l_key l, l_value l), e) in PRet (o, rights)
        | None => let+ o := etcall lop (l_key l, l_value l) in PRet (o, rights) end in
      let+ t := al_transform_result red ck cv l result next in PRet (t, rights))
    (let+ o := atake_key (ky_eq ky (l_key l)) rights in
      let+ (result, rights) := match o with
        | Some (e, rights) => let+ o := etcall both1 ((l_key l, l_value l), e) in PRet (o, rights)
        | None => let+ o := etcall lop1 (l_key l, l_value l) in PRet (o, rights) end in
      let+ t := al_transform_result red ck cv l result next1 in PRet (t, rights))).
  { intros l next next1 rights Hn. eapply sim_bind; [apply atake_sim, (ks_eq _ _ _ _ Hky)|]. intros o ? <-.
    eapply sim_bind with (P := eq).
    - destruct o as [[e rest]|]; [eapply sim_bind; [apply etcall_sim, Hb|]|eapply sim_bind; [apply etcall_sim, Hl|]]; intros o' ? <-; apply sim_ret; reflexivity.
    - intros [o' rest] ? <-. eapply sim_bind; [apply al_result_sim; eassumption|]. intros t t1 Ht. apply sim_ret. split; [exact Ht|reflexivity]. }
  induction this as [k v n IH z|k v s z]; intros rights; cbn [atm_l_impl].
  - eapply sim_bind; [apply IH|]. intros [t rest] [t1 ?] [Ht Hs]. cbn in Ht, Hs. subst. apply (Htail (LNL k v n z)), Ht.
  - eapply sim_bind with (P := with_eq trel).
    + eapply sim_bind; [apply atake_sim, (ks_eq _ _ _ _ Hky)|]. intros [[e rest]|] ? <-.
      * eapply sim_bind; [apply atm_s_impl_sim|]. intros t t1 Ht. apply sim_ret. split; [exact Ht|reflexivity].
      * eapply sim_bind; [apply as_transform_sim; eassumption|]. intros t t1 Ht. apply sim_ret. split; [exact Ht|reflexivity].
    + intros [t rest] [t1 ?] [Ht Hs]. cbn in Ht, Hs. subst. apply (Htail (LNS k v s z)), Ht.
Qed.
Lemma atm_rest_sim this rights : forall next next1, trel next next1 -> sim trel (atm_rest red rop this rights next) (atm_rest red rop1 this rights next1).
Proof.
  induction rights as [|e rights IH]; intros next next1 Hn; cbn [atm_rest]; [apply sim_ret, Hn|]. eapply sim_bind; [apply emcall_sim, Hr|]. intros o ? <-.
  eapply sim_bind with (P := trel); [destruct o; reds|]. intros t t1 Ht. apply IH, Ht.
Qed.
Lemma atm_lnode_sim this right d : sim trel (atm_lnode red ck cv ky both lop rop this right d) (atm_lnode red ck cv ky both1 lop1 rop1 this right d).
Proof.
  unfold atm_lnode. eapply sim_bind; [apply (ks_hash _ _ _ _ Hky)|]. intros h ? <-. eapply sim_bind; [apply (ks_hash' _ _ _ _ Hky)|]. intros h' ? <-.
  destruct (same_hash h h'); [|apply atm_apart_sim]. eapply sim_bind; [lone|]. intros rights ? <-. eapply sim_bind; [apply atm_l_impl_sim|].
  intros [t rest] [t1 ?] [Ht Hs]. cbn in Ht, Hs. subst. apply atm_rest_sim, Ht.
Qed.
Lemma atm_ls_impl_sim this right : sim trel (atm_ls_impl red ck cv ky both lop rop this right) (atm_ls_impl red ck cv ky both1 lop1 rop1 this right).
Proof.
  induction this as [k v n IH z|k v s z]; cbn [atm_ls_impl]; (eapply sim_bind; [apply (ks_eq _ _ _ _ Hky)|]; intros [] ? <-).
  1,3: eapply sim_bind; [apply an_transform_sim; eassumption|]; intros t t1 Ht; eapply sim_bind; [apply etcall_sim, Hb|]; intros o ? <-; apply al_result_sim; assumption.
  - eapply sim_bind; [exact IH|]; intros t t1 Ht; eapply sim_bind; [apply etcall_sim, Hl|]; intros o ? <-; apply al_result_sim; assumption.
  - eapply sim_bind; [apply atm_s_impl_sim|]; intros t t1 Ht; eapply sim_bind; [apply etcall_sim, Hl|]; intros o ? <-; apply al_result_sim; assumption.
Qed.
Lemma atm_lsnode_sim this right d : sim trel (atm_lsnode red ck cv ky both lop rop this right d) (atm_lsnode red ck cv ky both1 lop1 rop1 this right d).
Proof.
  unfold atm_lsnode. eapply sim_bind; [apply (ks_hash _ _ _ _ Hky)|]. intros h ? <-. eapply sim_bind; [apply (ks_hash' _ _ _ _ Hky)|]. intros h' ? <-.
  destruct (same_hash h h'); [apply atm_ls_impl_sim|apply atm_apart_sim].
Qed.
Lemma atm_snode_sim this right d : sim trel (atm_snode red ck cv ky both lop rop this right d) (atm_snode red ck cv ky both1 lop1 rop1 this right d).
Proof.
  unfold atm_snode. eapply sim_bind; [apply (ks_hash _ _ _ _ Hky)|]. intros h ? <-. eapply sim_bind; [apply (ks_hash' _ _ _ _ Hky)|]. intros h' ? <-.
  destruct (same_hash h h'); [apply atm_s_impl_sim|apply atm_apart_sim].
Qed.
Lemma atm_add_sim b a a1 i (ol : option (mnode K V)) (or : option (mnode L W)) t t1 : arel a a1 -> trel t t1 -> sim arel (atm_add red b a i ol or t) (atm_add red b a1 i ol or t1).
Proof.
  intros Ha Ht. destruct t, t1; cbn [trel] in Ht; try contradiction; cbn [atm_add].
  - eapply sim_bind; [lone|]. intros l ? <-. eapply sim_bind; [apply apush_sim; eassumption|]. intros x x1 Hx. apply sim_ret. destruct b; auto using set_ul_rel.
  - eapply sim_bind; [apply apush_new_sim; eassumption|]. intros x x1 Hx. apply sim_ret. auto using set_ul_rel.
Qed.
End TM.

(** * transmute_with_transformed *)
Section MT.
Context {K V L W : Type} (cl : L -> prog A L) (cw : W -> prog A W) (ky : keyed A K L).
Context (Hcl : forall k, sim eq (cl k) (cl k)) (Hcw : forall v, sim eq (cw v) (cw v)) (Hky : ksim ky).
Context (both both1 : etransform A ((K * V) * (L * W)) W R) (lop lop1 : etransmute A (K * V) L W R) (rop rop1 : etransform A (L * W) W R).
Context (Hb : tlike both both1) (Hl : mlike lop lop1) (Hr : tlike rop rop1).

Lemma amt_apart_sim this right h h' d : sim trel (amt_apart red cl cw lop rop this right h h' d) (amt_apart red cl cw lop1 rop1 this right h h' d).
Proof.
  unfold amt_apart. eapply sim_bind; [apply an_transmute_sim; eassumption|]. intros l l1 HL. eapply sim_bind; [apply an_transform_sim; eassumption|]. intros r r1 HR.
  eapply sim_bind; [lone|]. intros [lf rf] ? <-. rewrite (tout_rel _ _ _ HR), (nnode_rel _ _ HL).
  destruct (nnode l1), (tout (next_mnode right) r1); reds. eapply sim_bind; [apply apair_sim|]. intros n n1 Hn. reds.
Qed.
Lemma amt_s_impl_sim this right : sim trel (amt_s_impl red cl ky both lop rop this right) (amt_s_impl red cl ky both1 lop1 rop1 this right).
Proof.
  unfold amt_s_impl. eapply sim_bind; [apply (ks_eq _ _ _ _ Hky)|]. intros [] ? <-.
  - eapply sim_bind; [apply etcall_sim, Hb|]. intros o ? <-. destruct o; reds.
  - eapply sim_bind; [apply emcall_sim, Hl|]. intros o ? <-. eapply sim_bind; [apply etcall_sim, Hr|]. intros o' ? <-. destruct o, o'; reds.
Qed.
Lemma amt_hit_sim this o next next1 : nrel next next1 -> sim nrel (amt_hit red cl cw this o next) (amt_hit red cl cw this o next1).
Proof. intros H. destruct o; cbn [amt_hit]; reds. Qed.
Lemma amt_miss_sim this o next next1 : trel next next1 -> sim trel (amt_miss red cl cw this o next) (amt_miss red cl cw this o next1).
Proof. intros H. destruct o; cbn [amt_miss]; [reds|]. destruct next, next1; cbn [trel] in H; try contradiction; reds. Qed.
Lemma amt_ls_impl_sim this right : sim trel (amt_ls_impl red cl cw ky both lop rop this right) (amt_ls_impl red cl cw ky both1 lop1 rop1 this right).
Proof.
  induction this as [k v n IH z|k v s z]; cbn [amt_ls_impl]; (eapply sim_bind; [apply (ks_eq _ _ _ _ Hky)|]; intros [] ? <-).
  1,3: eapply sim_bind; [apply an_transmute_sim; eassumption|]; intros t t1 Ht; eapply sim_bind; [apply etcall_sim, Hb|]; intros o ? <-;
    eapply sim_bind; [apply amt_hit_sim; eassumption|]; intros ? ? ?; apply sim_ret; assumption.
  - eapply sim_bind; [exact IH|]; intros t t1 Ht; eapply sim_bind; [apply emcall_sim, Hl|]; intros o ? <-; apply amt_miss_sim; assumption.
  - eapply sim_bind; [apply amt_s_impl_sim|]; intros t t1 Ht; eapply sim_bind; [apply emcall_sim, Hl|]; intros o ? <-; apply amt_miss_sim; assumption.
Qed.
Lemma amt_lsnode_sim this right d : sim trel (amt_lsnode red cl cw ky both lop rop this right d) (amt_lsnode red cl cw ky both1 lop1 rop1 this right d).
Proof.
  unfold amt_lsnode. eapply sim_bind; [apply (ks_hash _ _ _ _ Hky)|]. intros h ? <-. eapply sim_bind; [apply (ks_hash' _ _ _ _ Hky)|]. intros h' ? <-.
  destruct (same_hash h h'); [apply amt_ls_impl_sim|apply amt_apart_sim].
Qed.
Lemma amt_snode_sim this right d : sim trel (amt_snode red cl cw ky both lop rop this right d) (amt_snode red cl cw ky both1 lop1 rop1 this right d).
Proof.
  unfold amt_snode. eapply sim_bind; [apply (ks_hash _ _ _ _ Hky)|]. intros h ? <-. eapply sim_bind; [apply (ks_hash' _ _ _ _ Hky)|]. intros h' ? <-.
  destruct (same_hash h h'); [apply amt_s_impl_sim|apply amt_apart_sim].
Qed.
Lemma amt_add_sim b a a1 i (ol : option (mnode K V)) (or : option (mnode L W)) t t1 : arel a a1 -> trel t t1 -> sim arel (amt_add red b a i ol or t) (amt_add red b a1 i ol or t1).
Proof.
  intros Ha Ht. destruct t, t1; cbn [trel] in Ht; try contradiction; cbn [amt_add].
  - eapply sim_bind; [lone|]. intros l ? <-. eapply sim_bind; [apply apush_sim; eassumption|]. intros x x1 Hx. apply sim_ret. destruct b; auto using set_ur_rel.
  - eapply sim_bind; [apply apush_new_sim; eassumption|]. intros x x1 Hx. apply sim_ret. auto using set_ur_rel.
Qed.
End MT.

(** * transmute_with_transmuted *)
Section MM.
Context {K V L W S X : Type} (ky : keyed A K L).
Context (Hky : ksim ky).
Context (both both1 : etransmute A ((K * V) * (L * W)) S X R) (lop lop1 : etransmute A (K * V) S X R) (rop rop1 : etransmute A (L * W) S X R).
Context (Hb : mlike both both1) (Hl : mlike lop lop1) (Hr : mlike rop rop1).

Lemma amm_apart_sim this right h h' d : sim nrel (amm_apart red lop rop this right h h' d) (amm_apart red lop1 rop1 this right h h' d).
Proof.
  unfold amm_apart. eapply sim_bind; [apply an_transmute_sim; eassumption|]. intros l l1 HL. eapply sim_bind; [apply an_transmute_sim; eassumption|]. intros r r1 HR.
  eapply sim_bind; [lone|]. intros [lf rf] ? <-. rewrite (nnode_rel _ _ HR), (nnode_rel _ _ HL).
  destruct (nnode l1), (nnode r1); reds. apply apair_sim.
Qed.
Lemma amm_values_sim this right : sim nrel (amm_values red ky both lop rop this right) (amm_values red ky both1 lop1 rop1 this right).
Proof.
  unfold amm_values. eapply sim_bind; [apply (ks_eq _ _ _ _ Hky)|]. intros [] ? <-.
  - eapply sim_bind; [apply emcall_sim, Hb|]. intros o ? <-. destruct o; reds.
  - eapply sim_bind; [apply emcall_sim, Hl|]. intros o ? <-. eapply sim_bind; [apply emcall_sim, Hr|]. intros o' ? <-. destruct o, o'; reds.
Qed.
Lemma amm_l_impl_sim this : forall rights, sim (with_eq nrel) (amm_l_impl red ky both lop rop this rights) (amm_l_impl red ky both1 lop1 rop1 this rights).
Proof.
  assert (Htail : forall (l : lnode K V) next next1 rights, nrel next next1 ->
    sim (with_eq nrel) (let+ o := atake_key (ky_eq ky (l_key l)) rights in
      let+ (result, rights) := match o with
        | Some (e, rights) => let+ o := emcall both ((l_key l, l_value l), e) in PRet (o, rights)
        | None => let+ o := emcall lop (l_key l, l_value l) in PRet (o, rights) end in
      let+ t := al_transmute_result red result next in PRet (t, rights))
    (let+ o := atake_key (ky_eq ky (l_key l)) rights in
      let+ (result, rights) := match o with
        | Some (e, rights) => let+ o := emcall both1 ((l_key l, l_value l), e) in PRet (o, rights)
        | None => let+ o := emcall lop1 (l_key l, l_value l) in PRet (o, rights) end in
      let+ t := al_transmute_result red result next1 in PRet (t, rights))).
  { intros l next next1 rights Hn. eapply sim_bind; [apply atake_sim, (ks_eq _ _ _ _ Hky)|]. intros o ? <-.
    eapply sim_bind with (P := eq).
    - destruct o as [[e rest]|]; [eapply sim_bind; [apply emcall_sim, Hb|]|eapply sim_bind; [apply emcall_sim, Hl|]]; intros o' ? <-; apply sim_ret; reflexivity.
    - intros [o' rest] ? <-. eapply sim_bind; [apply al_mresult_sim; eassumption|]. intros t t1 Ht. apply sim_ret. split; [exact Ht|reflexivity]. }
  induction this as [k v n IH z|k v s z]; intros rights; cbn [amm_l_impl].
  - eapply sim_bind; [apply IH|]. intros [t rest] [t1 ?] [Ht Hs]. cbn in Ht, Hs. subst. apply (Htail (LNL k v n z)), Ht.
  - eapply sim_bind with (P := with_eq nrel).
    + eapply sim_bind; [apply atake_sim, (ks_eq _ _ _ _ Hky)|]. intros [[e rest]|] ? <-.
      * eapply sim_bind; [apply amm_values_sim|]. intros t t1 Ht. apply sim_ret. split; [exact Ht|reflexivity].
      * eapply sim_bind; [apply as_transmute_sim; eassumption|]. intros t t1 Ht. apply sim_ret. split; [exact Ht|reflexivity].
    + intros [t rest] [t1 ?] [Ht Hs]. cbn in Ht, Hs. subst. apply (Htail (LNS k v s z)), Ht.
Qed.
Lemma amm_rest_sim rights : forall next next1, nrel next next1 -> sim nrel (amm_rest red rop rights next) (amm_rest red rop1 rights next1).
Proof.
  induction rights as [|e rights IH]; intros next next1 Hn; cbn [amm_rest]; [apply sim_ret, Hn|]. eapply sim_bind; [apply emcall_sim, Hr|]. intros o ? <-.
  eapply sim_bind with (P := nrel); [destruct o; reds|]. intros t t1 Ht. apply IH, Ht.
Qed.
Lemma amm_lnode_sim this right d : sim nrel (amm_lnode red ky both lop rop this right d) (amm_lnode red ky both1 lop1 rop1 this right d).
Proof.
  unfold amm_lnode. eapply sim_bind; [apply (ks_hash _ _ _ _ Hky)|]. intros h ? <-. eapply sim_bind; [apply (ks_hash' _ _ _ _ Hky)|]. intros h' ? <-.
  destruct (same_hash h h'); [|apply amm_apart_sim]. eapply sim_bind; [lone|]. intros rights ? <-. eapply sim_bind; [apply amm_l_impl_sim|].
  intros [t rest] [t1 ?] [Ht Hs]. cbn in Ht, Hs. subst. apply amm_rest_sim, Ht.
Qed.
Lemma amm_ls_impl_sim this right : sim nrel (amm_ls_impl red ky both lop rop this right) (amm_ls_impl red ky both1 lop1 rop1 this right).
Proof.
  induction this as [k v n IH z|k v s z]; cbn [amm_ls_impl]; (eapply sim_bind; [apply (ks_eq _ _ _ _ Hky)|]; intros [] ? <-).
  1,3: eapply sim_bind; [apply an_transmute_sim; eassumption|]; intros t t1 Ht; eapply sim_bind; [apply emcall_sim, Hb|]; intros o ? <-; apply al_mresult_sim; assumption.
  - eapply sim_bind; [exact IH|]; intros t t1 Ht; eapply sim_bind; [apply emcall_sim, Hl|]; intros o ? <-; apply al_mresult_sim; assumption.
  - eapply sim_bind; [apply amm_values_sim|]; intros t t1 Ht; eapply sim_bind; [apply emcall_sim, Hl|]; intros o ? <-; apply al_mresult_sim; assumption.
Qed.
Lemma amm_lsnode_sim this right d : sim nrel (amm_lsnode red ky both lop rop this right d) (amm_lsnode red ky both1 lop1 rop1 this right d).
Proof.
  unfold amm_lsnode. eapply sim_bind; [apply (ks_hash _ _ _ _ Hky)|]. intros h ? <-. eapply sim_bind; [apply (ks_hash' _ _ _ _ Hky)|]. intros h' ? <-.
  destruct (same_hash h h'); [apply amm_ls_impl_sim|apply amm_apart_sim].
Qed.
Lemma amm_snode_sim this right d : sim nrel (amm_snode red ky both lop rop this right d) (amm_snode red ky both1 lop1 rop1 this right d).
Proof.
  unfold amm_snode. eapply sim_bind; [apply (ks_hash _ _ _ _ Hky)|]. intros h ? <-. eapply sim_bind; [apply (ks_hash' _ _ _ _ Hky)|]. intros h' ? <-.
  destruct (same_hash h h'); [apply amm_values_sim|apply amm_apart_sim].
Qed.
Lemma amm_add_sim a a1 i (ol : option (mnode K V)) (or : option (mnode L W)) (t t1 : nres S X R) : arel a a1 -> nrel t t1 -> sim arel (amm_add red a i ol or t) (amm_add red a1 i ol or t1).
Proof. intros Ha Ht. unfold amm_add. apply apush_new_sim; assumption. Qed.
End MM.
End Sim.
