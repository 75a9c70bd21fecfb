(** Two leaves or collision lists of the two maps of transmute_with_transmuted, whatever
    the client's code answers. *)
From Coq Require Import NArith Arith List Bool Lia ZifyBool ZifyN ZifyNat Permutation.
From Verif Require Import Base Words WordsP Flag FlagP Bia BiaP Node Inv InsertP Api Trans Transform Joint Profile Eff EffP EffTP EffApi Ask AskP AskHashP AskT SpecAskT JoinP JointLeafP LoopP TransformP
  PermP AskTP AskTTP AskJ AskJP AskJOneP AskJLeafP.
Import ListNotations.
Open Scope N_scope.

Record mmlaws {E : Env} {Q : Type} {A : Q -> Type} {S X R I C U : Type} (w : world A S X R I C U) {K V L W : Type} (ml : mside w K V) (mr : mside w L W)
  (ky : keyed A K L) (both : (K * V) * (L * W) -> prog A (kres S X R)) (yes : list (event (A := A)) -> K -> L -> Prop) : Prop := {
  mj_both : forall x y, calls (w_good w) (w_told w) (both (x, y)) [m_inj ml x; m_inj mr y] (fun o e => exists i, w_see w e = ItOp i /\ w_rof w i = kr o /\
    (forall t, In e t -> yes t (fst x) (fst y) -> w_becomes w t i (kout o)) /\ (forall h, m_has ml h x -> m_has mr h y -> w_ihas w h i));
  mj_eq : forall k k', calls (w_good w) (w_told w) (ky_eq ky k k') [] (fun b e => w_see w e = ItNone /\ (b = true -> forall t, In e t -> yes t k k'));
  mj_eq' : forall k k', calls (w_good w) (w_told w) (ky_eq' ky k' k) [] (fun b e => w_see w e = ItNone /\ (b = true -> forall t, In e t -> yes t k k'));
  mj_hash : forall k, calls (w_good w) (w_told w) (ky_hash ky k) [] (fun x e => w_see w e = ItNone /\ forall h v, m_has ml h (k, v) -> w_tells w e h x);
  mj_hash' : forall k, calls (w_good w) (w_told w) (ky_hash' ky k) [] (fun x e => w_see w e = ItNone /\ forall h v, m_has mr h (k, v) -> w_tells w e h x)
}.
Arguments mj_both {E Q A S X R I C U w K V L W ml mr ky both yes}.
Arguments mj_eq {E Q A S X R I C U w K V L W ml mr ky both yes}.
Arguments mj_eq' {E Q A S X R I C U w K V L W ml mr ky both yes}.
Arguments mj_hash {E Q A S X R I C U w K V L W ml mr ky both yes}.
Arguments mj_hash' {E Q A S X R I C U w K V L W ml mr ky both yes}.

Lemma calls_perm {Q : Type} {A : Q -> Type} {U : Type} (good : event (A := A) -> Prop) (told : event (A := A) -> list U) {Y} (p : prog A Y) us us' it :
  Permutation us us' -> calls good told p us it -> calls good told p us' it.
Proof. intros HP H tr o He Hg. destruct (H tr o He Hg) as [H1 H2]. split; [rewrite H1; exact HP|exact H2]. Qed.

Lemma mm_flip {E : Env} {Q : Type} {A : Q -> Type} {S X R I C U : Type} (w : world A S X R I C U) {K V L W : Type} (ml : mside w K V) (mr : mside w L W) ky both yes :
  mmlaws w ml mr ky both yes -> mmlaws w mr ml (ky_flip ky) (fun p => both (snd p, fst p)) (fun t k k' => yes t k' k).
Proof.
  intros [H1 H2 H3 H4 H5]. constructor; try assumption.
  - intros x y. eapply calls_perm; [apply perm_swap|]. eapply calls_weak; [|apply (H1 y x)]. intros o e _ (i & I1 & I2 & I3 & I4). exists i. auto 6.
  - intros k k'. apply H3.
  - intros k k'. apply H2.
Qed.

Section MM.
Context {E : Env} {Q : Type} {A : Q -> Type} {S X R I C U : Type} {w : world A S X R I C U}.
Notation event := (event (A := A)).
Notation trace := (list event).
Implicit Types tr t : trace.
Notation good := (w_good w).
Notation see := (w_see w).
Notation red := (w_red w).
Notation none := (none w).
Notation jspec := (jspec w).
Notation jfull := (jfull w).
Notation jpast := (jpast w).
Notation hdone := (hdone w).
Notation ldone := (ldone w).
Notation sdone := (sdone w).
Notation ksaid := (ksaid w).

Section Laws.
Context {K V L W : Type} {ml : mside w K V} {mr : mside w L W}.
Context {ky : keyed A K L} {both : (K * V) * (L * W) -> prog A (kres S X R)} {yes : trace -> K -> L -> Prop} (laws : mmlaws w ml mr ky both yes).
Notation iL := (m_inj ml).
Notation iR := (m_inj mr).
Notation lhas := (m_has ml).
Notation rhas := (m_has mr).
Notation Both := (EMGeneric both).
Notation Lop := (EMGeneric (m_f ml)).
Notation Rop := (EMGeneric (m_f mr)).

Lemma ksaid_both h (x : K * V) (y : L * W) o n e i : good e -> see e = ItOp i -> w_rof w i = kr o -> (forall t, In e t -> yes t (fst x) (fst y) -> w_becomes w t i (kout o)) ->
  w_ihas w h i -> Forall none n -> Forall good n -> (forall t, incl n t -> yes t (fst x) (fst y)) -> ksaid h n e i o.
Proof.
  intros H1 H2 H3 H4 H5 H6 H7 H8. split; [assumption|]. split; [assumption|]. split; [assumption|]. split; [|split; [assumption|]].
  - apply H4; [apply in_or_app; right; left; reflexivity|]. apply H8. intros x' Hx'. apply in_or_app. left. assumption.
  - apply Forall_app. split; [assumption|]. repeat constructor. assumption.
Qed.

Lemma k_nres_ok (o : kres S X R) : ovisit (nnode (k_nres o)) = kout o /\ nred (k_nres o) = kr o /\ forall n, nnode (k_nres o) = Some n -> leafy n.
Proof. destruct o; cbn; (split; [reflexivity|split; [reflexivity|]]); [intros n [= <-]; exact Logic.I|discriminate]. Qed.

Lemma amm_values_j h x y : lhas h x -> rhas h y ->
  jfull [iL x; iR y] (amm_values red ky Both Lop Rop x y) (fun t r => ldone h (nnode r) (nred r) t).
Proof.
  intros H1 H2. unfold amm_values. eapply jf_quiet; [apply (mj_eq laws)|]. intros b e0 G0 [N0 Y0]. destruct b.
  - cbn [emcall]. eapply (jf_call w _ _ []); [apply (mj_both laws)|reflexivity|]. intros o e Ge (i & I1 & I2 & I3 & I4). apply jf_ret.
    destruct (k_nres_ok o) as (K1 & K2 & K3). split; [|exact K3]. rewrite K1, K2. apply (k_said w h [e0] e i).
    apply (ksaid_both h x y); auto. intros t Ht. apply Y0; [reflexivity|]. apply Ht. left. reflexivity.
  - cbn [emcall]. eapply (jf_call w _ _ [iR y]); [apply (m_calls_f ml)|reflexivity|]. intros o e Ge (i & I1 & I2 & I3 & I4).
    eapply (jf_call w _ _ []); [apply (m_calls_f mr)|reflexivity|]. intros o' e' Ge' (i' & J1 & J2 & J3 & J4).
    pose proof (k_said _ _ _ _ _ _ (ksaid_call w ml h _ _ _ Ge I1 I2 I3 (I4 h H1))) as DL.
    pose proof (k_said _ _ _ _ _ _ (ksaid_call w mr h _ _ _ Ge' J1 J2 J3 (J4 h H2))) as DR.
    destruct o as [lk lv lr|lr], o' as [rk rv rr|rr]; cbn [kr kout] in *;
      (eapply jf_quiet; [apply w_calls_red|]; intros z e3 _ He3; apply jf_ret;
       split; [apply (hd_none w h [e0] _ _ [e; e'; e3]); [repeat constructor; assumption|]; eapply hd_join; [exact DL|exact DR|exact He3|cbn [app]; permut|reflexivity]|]).
    + intros n' [= <-]. reflexivity.
    + intros n' [= <-]. exact Logic.I.
    + intros n' [= <-]. exact Logic.I.
    + discriminate.
Qed.

Lemma atake_m k (rights : list (L * W)) :
  jfull [] (atake_key (ky_eq ky k) rights) (fun t o => Forall none t /\
    match o with Some (y, rest) => Permutation rights (y :: rest) /\ forall t', incl t t' -> yes t' k (fst y) | None => True end).
Proof. apply (take_j w (ky_eq ky k) (fun t => yes t k)). intros k'. apply (mj_eq laws). Qed.

Lemma amm_l_tail_j h k v next rights t0 : lhas h (k, v) -> Forall (rhas h) rights -> ldone h (nnode next) (nred next) t0 ->
  jspec (iL (k, v) :: map iR rights)
    (let+ o := atake_key (ky_eq ky k) rights in
     let+ (result, rights) :=
       match o with
       | Some (e, rights) => let+ o := emcall Both ((k, v), e) in PRet (o, rights)
       | None => let+ o := emcall Lop (k, v) in PRet (o, rights)
       end in
     let+ z := al_transmute_result red result next in
     PRet (z, rights))
    (fun t y rest => rest = map iR (snd y) /\ Forall (rhas h) (snd y) /\ ldone h (nnode (fst y)) (nred (fst y)) (t0 ++ t)).
Proof.
  intros Hh Hr HD. eapply js_cut0; [apply atake_m|]. intros n o Hn [Nn Ho].
  apply (js_bind w _ _ _ (fun t y rest => exists e i, t = [e] /\ rest = map iR (snd y) /\ Forall (rhas h) (snd y) /\ ksaid h n e i (fst y))).
  - destruct o as [[y rest]|]; cbn [emcall].
    + destruct Ho as [HP Hy]. apply (js_perm w ([iL (k, v); iR y] ++ map iR rest)).
      { rewrite (Permutation_map iR HP). reflexivity. }
      assert (Hr' : Forall (rhas h) (y :: rest)) by (eapply Permutation_Forall; eassumption). inversion Hr' as [|? ? Hmy Hrest]; subst.
      eapply js_call; [apply (mj_both laws)|reflexivity|]. intros o e Ge (i & I1 & I2 & I3 & I4). apply js_ret.
      exists e, i. split; [reflexivity|]. split; [reflexivity|]. split; [assumption|]. cbn [fst]. apply (ksaid_both h (k, v) y); auto.
    + eapply (js_call w _ _ (map iR rights)); [apply (m_calls_f ml)|reflexivity|]. intros o e Ge (i & I1 & I2 & I3 & I4). apply js_ret.
      exists e, i. split; [reflexivity|]. split; [reflexivity|]. split; [assumption|]. cbn [fst].
      split; [assumption|]. split; [assumption|]. split; [apply (m_rof ml); assumption|]. split; [|split; [auto|]].
      * apply (m_out ml); [|assumption]. apply I3, in_or_app. right. left. reflexivity.
      * apply Forall_app. split; [assumption|]. repeat constructor. assumption.
  - intros t [result rights'] rest Ht (e & i & -> & -> & Hm & HS). cbn [fst snd] in *.
    eapply js_cut0; [apply (al_mresult_j w h result next t0 n e i HD HS)|]. intros t y _ Hy. apply js_ret.
    cbn [fst snd]. split; [reflexivity|]. split; [assumption|]. rewrite app_nil_r. cbn beta in Hy. rewrite <- app_assoc in Hy. exact Hy.
Qed.

Lemma amm_l_impl_j h l : forall rights, Forall (lhas h) (l_visit l) -> Forall (rhas h) rights ->
  jspec (map iL (l_visit l) ++ map iR rights) (amm_l_impl red ky Both Lop Rop l rights)
    (fun t y rest => rest = map iR (snd y) /\ Forall (rhas h) (snd y) /\ ldone h (nnode (fst y)) (nred (fst y)) t).
Proof.
  induction l as [k v n IH sz|k v s sz]; intros rights Hh Hr.
  - cbn [l_visit map] in *. inversion Hh as [|? ? Hk Hh']; subst.
    apply (js_perm w ((map iL (l_visit n) ++ map iR rights) ++ [iL (k, v)])); [permut|]. cbn [amm_l_impl].
    eapply js_bind; [apply js_frame, IH; assumption|]. intros t [next rights'] rest Ht (rest1 & -> & -> & Hm & Hy). cbn [fst snd] in *.
    apply (js_perm w (iL (k, v) :: map iR rights')); [permut|].
    exact (amm_l_tail_j h k v next rights' t Hk Hm Hy).
  - change (l_visit (LNS k v s sz)) with ((k, v) :: [(s_key s, s_value s)]) in *. inversion Hh as [|? ? Hk Hh']; subst. inversion Hh' as [|? ? Hs _]; subst.
    cbn [amm_l_impl map]. set (kv := (s_key s, s_value s)) in *.
    apply (js_bind w _ _ _ (fun t y rest => rest = map iR (snd y) ++ [iL (k, v)] /\ Forall (rhas h) (snd y) /\ ldone h (nnode (fst y)) (nred (fst y)) t)).
    + eapply js_cut0; [apply atake_m|]. intros n o Hn [Nn Ho]. destruct o as [[y rest]|].
      * destruct Ho as [HP Hy]. assert (Hr' : Forall (rhas h) (y :: rest)) by (eapply Permutation_Forall; eassumption). inversion Hr' as [|? ? Hmy Hrest]; subst.
        apply (js_perm w ([iL kv; iR y] ++ map iR rest ++ [iL (k, v)])).
        { rewrite (Permutation_map iR HP). cbn [map]. permut. }
        eapply (js_cut w _ _ (map iR rest ++ [iL (k, v)])); [apply (amm_values_j h kv y); assumption|reflexivity|]. intros t r _ [D1 D2]. apply js_ret. cbn [fst snd]. rewrite app_nil_r.
        split; [reflexivity|]. split; [assumption|]. split; [apply hd_none; assumption|assumption].
      * eapply (js_cut w _ [iL kv] (map iR rights ++ [iL (k, v)])); [apply (as_transmute_j w ml h s); assumption|permut|]. intros t r _ [D1 D2]. apply js_ret. cbn [fst snd]. rewrite app_nil_r.
        split; [reflexivity|]. split; [assumption|]. split; [apply hd_none; assumption|assumption].
    + intros t [next rights'] rest Ht (-> & Hm & Hy). cbn [fst snd] in *.
      apply (js_perm w (iL (k, v) :: map iR rights')); [permut|].
      exact (amm_l_tail_j h k v next rights' t Hk Hm Hy).
Qed.

Lemma amm_rest_j h rights : Forall (rhas h) rights -> forall next t0, ldone h (nnode next) (nred next) t0 ->
  jfull (map iR rights) (amm_rest red Rop rights next) (fun t y => ldone h (nnode y) (nred y) (t0 ++ t)).
Proof.
  intros Hm. induction Hm as [|y rights Hy Hm IH]; intros next t0 [D1 D2]; cbn [amm_rest map].
  - apply jf_ret. rewrite app_nil_r. split; assumption.
  - cbn [emcall]. eapply (jf_call w _ _ (map iR rights)); [apply (m_calls_f mr)|reflexivity|]. intros o e Ge (i & I1 & I2 & I3 & I4).
    pose proof (k_said _ _ _ _ _ _ (ksaid_call w mr h _ _ _ Ge I1 I2 I3 (I4 h Hy))) as HK.
    eapply (jf_cut w _ [] (map iR rights) _ _ (fun t z => ldone h (nnode z) (nred z) (t0 ++ [e] ++ t))); [|reflexivity|].
    + destruct o as [rk rv rr|rr]; (eapply jf_quiet; [apply w_calls_red|]); intros z e3 _ He3; apply jf_ret.
      * destruct (n_cons_ok rk rv next z D2) as (C1 & C2 & C3). split; [|exact C3]. rewrite C1, C2. eapply hd_join; [exact HK|exact D1|exact He3|cbn [app]; permut|reflexivity].
      * rewrite nnode_with, nred_with. split; [|exact D2]. eapply hd_join; [exact HK|exact D1|exact He3|cbn [app]; permut|reflexivity].
    + intros t z _ Hz. eapply jf_weak; [apply (IH z _ Hz)|]. intros t' z' _ Hz'. cbn beta in Hz'. rewrite <- !app_assoc in Hz'. exact Hz'.
Qed.

Lemma amm_apart_j n d p h h' wd wd' this right : told_apart w n d p h h' wd wd' -> Forall (lhas h) (m_visit (next_mnode this)) -> Forall (rhas h') (m_visit (next_mnode right)) ->
  jpast n (map iL (m_visit (next_mnode this)) ++ map iR (m_visit (next_mnode right)))
    (amm_apart red Lop Rop this right wd wd' d)
    (fun t y => sdone d p (nnode y) (nred y) t).
Proof.
  intros HT H1 H3. unfold amm_apart. eapply jp_cut; [apply jp_full, (an_transmute_j w ml h); assumption|reflexivity|]. intros t1 l G1 D1.
  eapply (jp_cut w _ _ _ []); [apply jp_full, (an_transmute_j w mr h'); assumption|rewrite app_nil_r; reflexivity|]. intros t2 r G2 D2. rewrite <- app_assoc.
  apply (aflags_j w n (t1 ++ t2) d p h h' _ _ _ _ _ HT). intros lf rf Hf. cbn beta in D1, D2.
  destruct (nnode l) as [a|] eqn:Ha; [destruct (nnode r) as [b|] eqn:Hb|].
  - apply (apair_j w n d p h h' wd wd' a b _ _ _ _ (t1 ++ t2) lf rf HT Hf D1 D2).
  - eapply jp_quiet; [apply w_calls_red|]. intros z e3 _ He3. apply jp_full, jf_ret. rewrite nnode_with, nred_with, Ha.
    exact (one_done w d p h h' (Some a) None _ _ _ _ _ _ (ta_l _ _ _ _ _ _ _ _ HT) (ta_l' _ _ _ _ _ _ _ _ HT) D1 D2 He3 (or_intror eq_refl)).
  - eapply jp_quiet; [apply w_calls_red|]. intros z e3 _ He3. apply jp_full, jf_ret. rewrite nnode_with, nred_with.
    exact (one_done w d p h h' None _ _ _ _ _ _ _ (ta_l _ _ _ _ _ _ _ _ HT) (ta_l' _ _ _ _ _ _ _ _ HT) D1 D2 He3 (or_introl eq_refl)).
Qed.

Lemma mtells k v h : lhas h (k, v) -> calls good (w_told w) (ky_hash ky k) [] (fun x e => see e = ItNone /\ w_tells w e h x).
Proof. intros H. eapply calls_weak; [|apply (mj_hash laws)]. intros y e _ [H1 H2]. split; [assumption|]. eapply H2. exact H. Qed.
Lemma mtells' k v h : rhas h (k, v) -> calls good (w_told w) (ky_hash' ky k) [] (fun x e => see e = ItNone /\ w_tells w e h x).
Proof. intros H. eapply calls_weak; [|apply (mj_hash' laws)]. intros y e _ [H1 H2]. split; [assumption|]. eapply H2. exact H. Qed.
Lemma mmoved e e' h h' wd wd' : good e -> good e' -> w_tells w e h wd -> w_tells w e' h' wd' -> proj1_sig wd = proj1_sig wd' -> forall y, rhas h' y -> rhas h y.
Proof. intros G1 G2 T1 T2 Heq y. apply (m_same mr _ _ _ _ _ _ G2 G1 T2 T1). symmetry. assumption. Qed.

Lemma amm_lnode_j d p h h' l r : Forall (lhas h) (l_visit l) -> Forall (rhas h') (l_visit r) -> w_lies w d p h -> w_lies w d p h' ->
  (3 <= lenN (l_visit r) -> w_stuck w) ->
  jfull (map iL (l_visit l) ++ map iR (l_visit r)) (amm_lnode red ky Both Lop Rop l r d) (fun t y => sdone d p (nnode y) (nred y) t).
Proof.
  intros Hh Hm L1 L2 Hst. unfold amm_lnode. eapply jf_weak.
  - eapply (hashes_j w d p h h' _ _ _ _ _ (fun t y => sdone d p (nnode y) (nred y) t)).
    + eapply mtells. exact (l_first l _ Hh).
    + eapply mtells'. exact (l_first r _ Hm).
    + assumption.
    + assumption.
    + intros e e' wd wd' G1 G2 T1 T2 Heq. assert (Hm' : Forall (rhas h) (l_visit r)) by (eapply Forall_impl; [|exact Hm]; exact (mmoved _ _ _ _ _ _ G1 G2 T1 T2 Heq)). rewrite rights_ok.
      destruct r as [k v nx sz|k v s sz]; cbn [l_next].
      * intros tr o [-> ->] _. exists (map iL (l_visit l) ++ map iR (l_visit (LNL k v nx sz))). split; [reflexivity|]. apply Hst. destruct nx as [? ? [] ?|]; unfold lenN; cbn [l_visit s_visit length]; lia.
      * cbn [lift pbind]. eapply js_bind; [apply (amm_l_impl_j h); assumption|]. intros t [next rights'] rest _ (-> & Hr' & Hd). cbn [fst snd] in *.
        eapply jf_weak; [apply (amm_rest_j h rights' Hr' next t Hd)|]. intros t' y _ Hy. exact (l_s_done w d p h _ _ _ L1 Hy).
    + intros n wd wd' HT. apply (amm_apart_j n d p h h' wd wd' (NL l) (NL r) HT); assumption.
  - intros t y _ (n & t' & Hn & -> & Hd). apply s_none; assumption.
Qed.

Lemma amm_ls_impl_j h l s : rhas h (s_key s, s_value s) -> Forall (lhas h) (l_visit l) ->
  jfull (map iL (l_visit l) ++ [iR (s_key s, s_value s)]) (amm_ls_impl red ky Both Lop Rop l s) (fun t y => ldone h (nnode y) (nred y) t).
Proof.
  intros Hm. set (y := (s_key s, s_value s)) in *.
  assert (Hyes : forall l, Forall (lhas h) (l_visit l) -> forall e0, good e0 -> none e0 -> (forall t, In e0 t -> yes t (l_key l) (s_key s)) ->
    jfull (map iL (l_visit l) ++ [iR y]) (let+ next := an_transmute red Lop (l_next l) in
      let+ o := emcall Both ((l_key l, l_value l), y) in al_transmute_result red o next)
      (fun t z => ldone h (nnode z) (nred z) (e0 :: t))).
  { intros l0 Hh e0 G0 N0 Y0. rewrite lrest_visit in Hh |- *. inversion Hh as [|? ? Hk Hh']; subst. cbn [map].
    eapply (jf_cut w _ _ [iL (l_key l0, l_value l0); iR y]); [apply (an_transmute_j w ml h (l_next l0)); exact Hh'|unfold lrest; permut|].
    intros t next _ Hn. cbn beta in Hn. cbn [emcall]. eapply (jf_call w _ _ []); [apply (mj_both laws)|reflexivity|]. intros o e Ge (i & I1 & I2 & I3 & I4).
    eapply jf_weak; [apply (al_mresult_j w h o next t [e0] e i Hn)|].
    - apply (ksaid_both h (l_key l0, l_value l0) y); auto. intros t' Ht'. apply Y0, Ht'. left. reflexivity.
    - intros t' z _ [D1 D2]. split; [|exact D2]. eapply hd_perm; [|exact D1]. permut. }
  assert (Hno : forall k v next t, lhas h (k, v) -> ldone h (nnode next) (nred next) t -> forall e0, good e0 -> none e0 ->
    jfull [iL (k, v)] (let+ o := emcall Lop (k, v) in al_transmute_result red o next)
      (fun t' z => ldone h (nnode z) (nred z) (e0 :: t ++ t'))).
  { intros k v next t Hk Hn e0 G0 N0. cbn [emcall]. eapply (jf_call w _ _ []); [apply (m_calls_f ml)|reflexivity|]. intros o e Ge (i & I1 & I2 & I3 & I4).
    eapply jf_weak; [apply (al_mresult_j w h o next t [] e i Hn); eapply ksaid_call; eauto|].
    intros t' z _ [D1 D2]. split; [|exact D2]. apply (hd_none w h [e0]); [repeat constructor; assumption|]. exact D1. }
  induction l as [k v n IH sz|k v s1 sz]; intros Hh.
  - cbn [amm_ls_impl]. eapply jf_quiet; [apply (mj_eq laws)|]. intros b e0 G0 [N0 Y0]. destruct b.
    + apply (Hyes (LNL k v n sz) Hh e0 G0 N0). auto.
    + cbn [l_visit map] in *. inversion Hh as [|? ? Hk Hh']; subst.
      eapply (jf_cut w _ _ [iL (k, v)]); [apply IH; assumption|permut|]. intros t next _ Hn.
      exact (Hno k v next t Hk Hn e0 G0 N0).
  - cbn [amm_ls_impl]. eapply jf_quiet; [apply (mj_eq laws)|]. intros b e0 G0 [N0 Y0]. destruct b.
    + apply (Hyes (LNS k v s1 sz) Hh e0 G0 N0). auto.
    + change (l_visit (LNS k v s1 sz)) with ((k, v) :: [(s_key s1, s_value s1)]) in *. inversion Hh as [|? ? Hk Hh']; subst. inversion Hh' as [|? ? Hs1 _]; subst. cbn [map].
      eapply (jf_cut w _ _ [iL (k, v)]); [apply (amm_values_j h (s_key s1, s_value s1) y); assumption|permut|]. intros t next _ Hn.
      exact (Hno k v next t Hk Hn e0 G0 N0).
Qed.

Lemma amm_lsnode_j d p h h' l s : Forall (lhas h) (l_visit l) -> rhas h' (s_key s, s_value s) -> w_lies w d p h -> w_lies w d p h' ->
  jfull (map iL (l_visit l) ++ [iR (s_key s, s_value s)]) (amm_lsnode red ky Both Lop Rop l s d) (fun t y => sdone d p (nnode y) (nred y) t).
Proof.
  intros Hh Hm L1 L2. unfold amm_lsnode. eapply jf_weak.
  - eapply (hashes_j w d p h h' _ _ _ _ _ (fun t y => sdone d p (nnode y) (nred y) t)).
    + eapply mtells. exact (l_first l _ Hh).
    + eapply mtells'. exact Hm.
    + assumption.
    + assumption.
    + intros e e' wd wd' G1 G2 T1 T2 Heq. eapply jf_weak; [apply (amm_ls_impl_j h l s); [|assumption]|].
      * exact (mmoved _ _ _ _ _ _ G1 G2 T1 T2 Heq _ Hm).
      * intros t y _ Hy. exact (l_s_done w d p h _ _ _ L1 Hy).
    + intros n wd wd' HT. apply (amm_apart_j n d p h h' wd wd' (NL l) (NS s) HT); [assumption|]. repeat constructor. exact Hm.
  - intros t y _ (n & t' & Hn & -> & Hd). apply s_none; assumption.
Qed.

Lemma amm_snode_j d p h h' s1 s : lhas h (s_key s1, s_value s1) -> rhas h' (s_key s, s_value s) -> w_lies w d p h -> w_lies w d p h' ->
  jfull [iL (s_key s1, s_value s1); iR (s_key s, s_value s)] (amm_snode red ky Both Lop Rop s1 s d) (fun t y => sdone d p (nnode y) (nred y) t).
Proof.
  intros Hh Hm L1 L2. unfold amm_snode. eapply jf_weak.
  - eapply (hashes_j w d p h h' _ _ _ _ _ (fun t y => sdone d p (nnode y) (nred y) t)).
    + eapply mtells. exact Hh.
    + eapply mtells'. exact Hm.
    + assumption.
    + assumption.
    + intros e e' wd wd' G1 G2 T1 T2 Heq. eapply jf_weak; [apply (amm_values_j h (s_key s1, s_value s1) (s_key s, s_value s)); [assumption|]|].
      * exact (mmoved _ _ _ _ _ _ G1 G2 T1 T2 Heq _ Hm).
      * intros t y _ Hy. exact (l_s_done w d p h _ _ _ L1 Hy).
    + intros n wd wd' HT. apply (amm_apart_j n d p h h' wd wd' (NS s1) (NS s) HT); repeat constructor; assumption.
  - intros t y _ (n & t' & Hn & -> & Hd). apply s_none; assumption.
Qed.

End Laws.

Lemma amm_leaf_j {K V L W} {ml : mside w K V} {mr : mside w L W} ky both yes (laws : mmlaws w ml mr ky both yes) d p this right :
  leaf_of (m_has ml) (w_lies w) d p (m_visit (next_mnode this)) -> leaf_of (m_has mr) (w_lies w) d p (m_visit (next_mnode right)) ->
  (3 <= lenN (m_visit (next_mnode right)) -> w_stuck w) ->
  jfull (map (m_inj ml) (m_visit (next_mnode this)) ++ map (m_inj mr) (m_visit (next_mnode right)))
    (amm_leaf red ky (EMGeneric both) (EMGeneric (m_f ml)) (EMGeneric (m_f mr)) this right d)
    (fun t y => sdone d p (nnode y) (nred y) t).
Proof.
  intros (h & Hh & L1) (h' & Hm & L2) Hst. destruct this as [l|s], right as [r|s']; cbn [next_mnode m_visit amm_leaf] in *.
  - eapply (amm_lnode_j laws); eassumption.
  - inversion Hm as [|? ? Hm' _]; subst. eapply (amm_lsnode_j laws); eassumption.
  - inversion Hh as [|? ? Hh' _]; subst. cbn [emflip]. eapply jf_perm; [apply Permutation_app_comm|].
    eapply (amm_lsnode_j (mm_flip _ _ _ _ _ _ laws)); eassumption.
  - inversion Hm as [|? ? Hm' _]; subst. inversion Hh as [|? ? Hh' _]; subst. eapply (amm_snode_j laws); eassumption.
Qed.

End MM.
