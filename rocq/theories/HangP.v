(** Exactly when transmute_with_transmuted and transform_with_transformed do
    not return. *)
From Coq Require Import NArith Arith List Bool Lia ZifyBool ZifyN ZifyNat Permutation.
From Verif Require Import Base Words WordsP Flag FlagP Bia BiaP Node Spec SpecP Inv NodeP InsertP TrieP Api ApiP Cost CostP
  Trans Transform LoopP SpecT TransformP Joint SpecJ JoinP JointLeafP JointP JointMP JointNodeP JointT Reach ReachP JointMapP JointTMapP StratP Stuck.
Import ListNotations.
Open Scope N_scope.

(** [P] says that the call is stuck. *)
Definition jx {A} (P : Prop) (o : outcome A) : Prop :=
  match o with Ret _ => ~ P | Panic => True | Diverge => P end.

Lemma jx_iff {A} (P Q : Prop) (o : outcome A) : (P <-> Q) -> jx P o -> jx Q o.
Proof. destruct o; cbn; tauto. Qed.

Lemma jx_bind {A B} (P : Prop) (o : outcome A) (f : A -> outcome B) : jx P o -> (forall a, f a <> Diverge) -> jx P (bind o f).
Proof. destruct o as [a| |]; cbn; auto. intros H Hf. specialize (Hf a). destruct (f a); cbn; auto; congruence. Qed.

Lemma jx_never {A} (P : Prop) (o : outcome A) : o <> Diverge -> ~ P -> jx P o.
Proof. destruct o; cbn; auto; congruence. Qed.

Lemma bind_nd {A B} (o : outcome A) (f : A -> outcome B) : o <> Diverge -> (forall a, f a <> Diverge) -> bind o f <> Diverge.
Proof. destruct o; cbn; auto; congruence. Qed.

Lemma unwrap_nd {A} (o : option A) : unwrap o <> Diverge.
Proof. destruct o; discriminate. Qed.
Lemma unwrap_ok_nd {A B} (o : result A B) : unwrap_ok o <> Diverge.
Proof. destruct o; discriminate. Qed.

(** * How deep a hash lies *)
Section Level.
Context {E : Env} {K V : Type} {KK : Key K}.

Fixpoint lev (n : mnode K V) (d h : N) {struct n} : N :=
  match n with
  | MC (BIA bits values _) => 1 + match getv bits (map lev values) (idx d h) with Some f => f (d + 1) h | None => 0 end
  | _ => 0
  end.

Lemma lev_C bits values x d h : lev (MC (BIA bits values x)) d h =
  1 + match getv bits values (idx d h) with Some c => lev c (d + 1) h | None => 0 end.
Proof. cbn [lev]. rewrite getv_map. destruct (getv bits values (idx d h)); reflexivity. Qed.

Lemma find_lev {Q} {KQ : Key Q} d p (n : mnode K V) : wf d p n -> forall (q : Q) f, flag_for d (hashk q) f ->
  exists r c, m_find_cost n q (Some f) = Ret (r, (lev n d (hashk q), c)).
Proof.
  induction 1 as [d p s Hs|d p l h HL Hl|d p bits values x Ho Hp Hok Hne Hx Hch IH]; intros q f Hf.
  1-2: cbn [m_find_cost lev]; eauto.
  rewrite lev_C. cbn [m_find_cost unwrap bind]. rewrite bat_map.
  assert (Hb : bat (BIA bits values x) (fl_flag f) =
    match getv bits values (idx d (hashk q)) with Some c => Ok c | None => Err BNotFound end).
  { rewrite (proj2 (proj2 Hf)) by assumption. apply (bat_get fw). exact Hok. }
  rewrite Hb. destruct (getv bits values (idx d (hashk q))) as [c|] eqn:Hg; [|eauto].
  pose proof (Hch _ _ Hg) as HWc. destruct c as [c0|l|s]; [|cbn [lev]; eauto..].
  assert (Hoff : off (d + 1) < hbits) by (inversion HWc; assumption).
  rewrite (flag_next_ok d (hashk q) f Hf Hoff). cbn [bind].
  destruct (IH _ _ Hg q _ (flag_for_at _ _ Hoff)) as (r & k & ->). cbn [bind]. eauto.
Qed.

Lemma branches_lev {Q} {KQ : Key Q} (m : trie K V) (q : Q) : wf 0 0 m -> branches m q = lev m 0 (hashk q).
Proof.
  intros HW. unfold branches, map_find_cost. rewrite flag_new_ok. cbn [bind].
  destruct (find_lev 0 0 m HW q _ (flag_for_0 _)) as (r & c & ->). cbn [bind]. destruct r; reflexivity.
Qed.

End Level.

(** * The traversals *)
Section Loops.
Context {E : Env} {S X R : Type}.
Context (rdef : R) (rd : R -> R -> R).

Lemma run_jx {T} (P : N -> Prop) st step (f : N -> outcome (cont S X R)) (done : acc S X R -> outcome T) :
  steps rd step f -> (forall i, i < max_ones fw -> jx (P i) (f i)) -> (forall a, done a <> Diverge) ->
  jx (exists i, i < max_ones fw /\ P i) (let* a := run_loop rdef rd st step in done a).
Proof.
  intros Hs HP Hd. destruct (run_loop_ok rdef rd st step f Hs) as [[H1 ->]|[(i & Hi & Hf & ->)|(i & Hi & Hf & ->)]]; cbn [bind].
  - apply jx_never; [apply Hd|]. intros (i & Hi & HPi). destruct (H1 i) as [c Hc]; [apply range_in; lia|].
    specialize (HP i Hi). rewrite Hc in HP. exact (HP HPi).
  - exact I.
  - apply range_in in Hi. exists i. split; [lia|]. specialize (HP i ltac:(lia)). rewrite Hf in HP. exact HP.
Qed.

End Loops.

Section Hang.
Context {E : Env} {K V L W S X R T : Type} {KK : Key K} {KL : Key L}.
Context (rdef : R) (rd : R -> R -> R).
Context (ac : T -> option (mnode K V) -> option (mnode L W) -> outcome (option (mnode S X) * bool * bool)) (jr : T -> R).
Context (add : acc S X R -> N -> option (mnode K V) -> option (mnode L W) -> T -> outcome (acc S X R)).
Context (Hadd : forall a i ol or t, i < max_ones fw -> okv i (a_bits a) (a_values a) ->
  add a i ol or t = let* c := ac t ol or in Ret (after rd (fun _ => Some (fst (fst c), jr t, snd (fst c), snd c)) [i] a)).
Context (Hac : forall t ol or, ac t ol or <> Diverge).
Context (done : acc S X R -> outcome T) (Hdone : forall a, done a <> Diverge).
Context (lone : mnode K V -> outcome T) (rone : mnode L W -> outcome T).
Context (Hlone : forall d p n, wf d p n -> lone n <> Diverge).
Context (Hrone : forall d p n, wf d p n -> rone n <> Diverge).

Notation scont := (scont ac jr).

Lemma scont_jx P o ol or : jx P o -> jx P (scont o ol or).
Proof.
  intros H. apply jx_bind; [exact H|]. intros t. apply bind_nd; [apply Hac|]. discriminate.
Qed.

(** A node against a list or leaf: the list of the latter is traversed. *)
Definition lstuck (n : mnode K V) (right : lnext L W) : Prop :=
  (2 <= cnt (hashk (next_key right)) (m_visit n))%nat /\ (3 <= length (m_visit (next_mnode right)))%nat.

Context (leaf : lnext K V -> lnext L W -> N -> outcome T).
Context (Hleaf : forall d p this right, wf d p (next_mnode this) -> wf d p (next_mnode right) ->
  jx (lstuck (next_mnode this) right) (leaf this right d)).

Lemma m_leaf_jx n : forall d p right, wf d p n -> wf d p (next_mnode right) ->
  jx (lstuck n right) (m_leaf rdef add lone rone done leaf right n d).
Proof.
  intros d p right HW. induction HW as [d p s Hs|d p l h HL Hl|d p bits values x Ho Hp Hok Hne Hx Hch IH]; intros HWr.
  - cbn [m_leaf]. apply (Hleaf d p (NS s)); [constructor|]; assumption.
  - cbn [m_leaf]. apply (Hleaf d p (NL l)); [econstructor; eassumption|assumption].
  - assert (HWC : wf d p (MC (BIA bits values x))) by (constructor; assumption).
    cbn [m_leaf]. rewrite flag_at_ok by assumption. cbn [bind unwrap fl_flag].
    pose proof (spread_leaf _ _ _ HWr) as Hsr. pose proof (spread_C _ _ _ _ _ HWC) as Hsl.
    set (hr := hashk (next_key right)) in *. set (j := idx d hr) in *.
    assert (Hpow : forall i, (2 ^ j =? 2 ^ i) = (i =? j)) by (intros i; rewrite pow2_eqb; apply N.eqb_sym).
    set (rec := m_leaf rdef add lone rone done leaf right) in *.
    pose (f := fun i => match getv bits values i with
          | Some c => scont (if i =? j then rec c (d + 1) else lone c) (Some c) (Some (next_mnode right))
          | None => if i =? j then scont (rone (next_mnode right)) None (Some (next_mnode right)) else Ret None end).
    pose (P := fun i => match getv bits values i with Some c => i = j /\ lstuck c right | None => False end).
    assert (Hst : steps rd (cl_step add lone rone (2 ^ j) (next_mnode right) d (BIA bits (map (fun c => (c, rec c)) values) x)) f).
    { intros a i Hi Ha. unfold cl_step. rewrite bat_bit_index_slot by assumption. cbn [bind].
      rewrite nth_bit_ok by assumption. cbn [unwrap_ok bind]. rewrite Hpow. unfold f.
      destruct (getv bits values i) as [c|]; destruct (N.eqb_spec i j); try (apply (scont_step rd ac jr add Hadd); assumption).
      cbn [bind]. rewrite after_nil_cont. reflexivity. }
    change (loop (cl_step add lone rone (2 ^ j) (next_mnode right) d (BIA bits (map (fun c => (c, rec c)) values) x)) (range 0 (max_ones fw)) (acc0 rdef))
      with (run_loop rdef rd Sequential (cl_step add lone rone (2 ^ j) (next_mnode right) d (BIA bits (map (fun c => (c, rec c)) values) x))).
    apply (jx_iff (exists i, i < max_ones fw /\ P i)).
    2:{ apply (run_jx rdef rd P _ _ f); [exact Hst| |exact Hdone].
      intros i Hi. unfold f, P. destruct (getv bits values i) as [c|] eqn:Hc; destruct (N.eqb_spec i j) as [Hij|Hij].
      - apply scont_jx. eapply jx_iff; [|apply (IH i c Hc); apply (proj2 Hsr); rewrite Hij, N.eqb_refl; reflexivity]. tauto.
      - apply scont_jx. apply jx_never; [eapply Hlone; apply (Hch i c Hc)|tauto].
      - apply scont_jx. apply jx_never; [eapply Hrone; exact HWr|tauto].
      - apply jx_never; [discriminate|tauto]. }
    assert (HC : cnt hr (m_visit (MC (BIA bits values x))) = cnt hr (ovisit (getv bits values j))).
    { apply (spread_cnt d p _ (getv bits values) hr Hp Hsl). }
    unfold lstuck, P. fold hr. rewrite HC. split.
    + intros (i & Hi & HPi). destruct (getv bits values i) as [c|] eqn:Hc; [|contradiction]. destruct HPi as [-> HPi]. rewrite Hc. exact HPi.
    + intros [H2 H3]. exists j. split; [apply idx_lt|]. destruct (getv bits values j) as [c|]; cbn [ovisit] in H2; [|cbn in H2; lia].
      split; [reflexivity|]. split; assumption.
Qed.

(** Two nodes. *)
Definition nstuck (d : N) (n : mnode K V) (right : mnode L W) : Prop :=
  exists h, if lev n d h <? lev right d h
            then (3 <= cnt h (m_visit n))%nat /\ (2 <= cnt h (m_visit right))%nat
            else (2 <= cnt h (m_visit n))%nat /\ (3 <= cnt h (m_visit right))%nat.

Lemma lev_leaf {A B} (n : lnext A B) d h : lev (next_mnode n) d h = 0.
Proof. destruct n; reflexivity. Qed.

Lemma cnt_leaf {A B} {KA : Key A} d p (n : lnext A B) h : wf d p (next_mnode n) -> (cnt h (m_visit (next_mnode n)) <> 0)%nat ->
  h = hashk (next_key n) /\ cnt h (m_visit (next_mnode n)) = length (m_visit (next_mnode n)).
Proof.
  intros HW Hc. destruct (leaf_entries _ _ _ HW) as (_ & HH & _).
  destruct (N.eq_dec h (hashk (next_key n))) as [->|Hn].
  - split; [reflexivity|]. apply cnt_all. exact HH.
  - exfalso. apply Hc. apply (cnt_other _ _ _ HH Hn).
Qed.

Lemma cnt_leaf_all {A B} {KA : Key A} d p (n : lnext A B) : wf d p (next_mnode n) ->
  cnt (hashk (next_key n)) (m_visit (next_mnode n)) = length (m_visit (next_mnode n)).
Proof. intros HW. apply cnt_all. apply (leaf_entries _ _ _ HW). Qed.

Lemma nstuck_leaf d p n right : wf d p n -> wf d p (next_mnode right) -> (lstuck n right <-> nstuck d n (next_mnode right)).
Proof.
  intros HW HWr. unfold lstuck, nstuck. split.
  - intros [H1 H2]. exists (hashk (next_key right)). rewrite lev_leaf.
    replace (_ <? 0) with false by (symmetry; apply N.ltb_ge; lia). split; [assumption|].
    rewrite (cnt_leaf_all d p) by assumption. assumption.
  - intros [h Hh]. rewrite lev_leaf in Hh. replace (_ <? 0) with false in Hh by (symmetry; apply N.ltb_ge; lia).
    destruct Hh as [H1 H2]. destruct (cnt_leaf d p right h HWr ltac:(lia)) as [-> H3]. split; [assumption|lia].
Qed.

Context (tree_leaf : lnext L W -> mnode K V -> N -> outcome T) (leaf_tree : lnext K V -> mnode L W -> N -> outcome T).
Context (st : strategy).
Context (Htl : forall d p n right, wf d p n -> wf d p (next_mnode right) -> jx (lstuck n right) (tree_leaf right n d)).
Context (Hlt : forall d p n right, wf d p (next_mnode n) -> wf d p right ->
  jx ((2 <= cnt (hashk (next_key n)) (m_visit right))%nat /\ (3 <= length (m_visit (next_mnode n)))%nat) (leaf_tree n right d)).

Lemma leaf_tree_jx d p n c : wf d p (next_mnode n) -> wf d p (MC c) -> jx (nstuck d (next_mnode n) (MC c)) (leaf_tree n (MC c) d).
Proof.
  intros HW HWr. eapply jx_iff; [|apply (Hlt d p); assumption]. unfold nstuck.
  assert (HL : forall h, (lev (next_mnode n) d h <? lev (MC c) d h) = true).
  { intros h. rewrite lev_leaf. destruct c as [bits values x]. rewrite lev_C. apply N.ltb_lt. lia. }
  split.
  - intros [H1 H2]. exists (hashk (next_key n)). rewrite HL, (cnt_leaf_all d p) by assumption. auto.
  - intros [h Hh]. rewrite HL in Hh. destruct Hh as [H1 H2]. destruct (cnt_leaf d p n h HW ltac:(lia)) as [-> H3]. split; [assumption|lia].
Qed.

Lemma m_joint_jx n : forall d p right, wf d p n -> wf d p right ->
  jx (nstuck d n right) (m_joint rdef rd add lone rone done leaf tree_leaf leaf_tree None st n right d).
Proof.
  intros d p right HW. revert right.
  induction HW as [d p s Hs|d p l h HL Hl|d p bits values x Ho Hp Hok Hne Hx Hch IH]; intros right HWr.
  - assert (HWs : wf d p (MS s)) by (constructor; assumption).
    destruct right as [c|r|r]; cbn [m_joint].
    + apply (leaf_tree_jx d p (NS s)); assumption.
    + eapply jx_iff; [apply (nstuck_leaf d p (MS s) (NL r)); assumption|]. apply (Hleaf d p (NS s) (NL r)); assumption.
    + eapply jx_iff; [apply (nstuck_leaf d p (MS s) (NS r)); assumption|]. apply (Hleaf d p (NS s) (NS r)); assumption.
  - assert (HWs : wf d p (ML l)) by (econstructor; eassumption).
    destruct right as [c|r|r]; cbn [m_joint].
    + apply (leaf_tree_jx d p (NL l)); assumption.
    + eapply jx_iff; [apply (nstuck_leaf d p (ML l) (NL r)); assumption|]. apply (Hleaf d p (NL l) (NL r)); assumption.
    + eapply jx_iff; [apply (nstuck_leaf d p (ML l) (NS r)); assumption|]. apply (Hleaf d p (NL l) (NS r)); assumption.
  - assert (HWC : wf d p (MC (BIA bits values x))) by (constructor; assumption).
    destruct right as [[rbits rvalues rx]|r|r]; cbn [m_joint].
    2:{ eapply jx_iff; [apply (nstuck_leaf d p _ (NL r)); assumption|]. apply (Htl d p _ (NL r)); assumption. }
    2:{ eapply jx_iff; [apply (nstuck_leaf d p _ (NS r)); assumption|]. apply (Htl d p _ (NS r)); assumption. }
    set (rec := m_joint rdef rd add lone rone done leaf tree_leaf leaf_tree None st) in *.
    assert (Hokr : okv (max_ones fw) rbits rvalues) by (inversion HWr; assumption).
    pose proof (spread_C _ _ _ _ _ HWr) as Hsr. pose proof (spread_C _ _ _ _ _ HWC) as Hsl.
    pose (f := fun i => match getv bits values i, getv rbits rvalues i with
        | Some c, Some r => scont (rec c r (d + 1)) (Some c) (Some r)
        | Some c, None => scont (lone c) (Some c) None
        | None, Some r => scont (rone r) None (Some r)
        | None, None => Ret None end).
    pose (P := fun i => match getv bits values i, getv rbits rvalues i with Some c, Some r => nstuck (d + 1) c r | _, _ => False end).
    assert (Hst : steps rd (cc_step add lone rone (BIA bits (map (fun c => (c, fun r => rec c r (d + 1))) values) x) (BIA rbits rvalues rx)) f).
    { intros a i Hi Ha. unfold cc_step. rewrite bat_bit_index_slot by assumption. cbn [bind].
      rewrite (bat_bit_index_get fw (BIA rbits rvalues rx)) by assumption. cbn [bind]. unfold get. cbn [bbits bvalues]. unfold f.
      destruct (getv bits values i) as [c|]; destruct (getv rbits rvalues i) as [r|]; try (apply (scont_step rd ac jr add Hadd); assumption).
      cbn [bind]. rewrite after_nil_cont. reflexivity. }
    apply (jx_iff (exists i, i < max_ones fw /\ P i)).
    2:{ apply (run_jx rdef rd P _ _ f); [exact Hst| |exact Hdone].
      intros i Hi. unfold f, P. destruct (getv bits values i) as [c|] eqn:Hc; destruct (getv rbits rvalues i) as [r|] eqn:Hr.
      - apply scont_jx. apply (IH i c Hc). apply (proj2 Hsr). assumption.
      - apply scont_jx. apply jx_never; [eapply Hlone; apply (Hch i c Hc)|tauto].
      - apply scont_jx. apply jx_never; [eapply Hrone; apply (proj2 Hsr i r Hr)|tauto].
      - apply jx_never; [discriminate|tauto]. }
    assert (HC : forall h, cnt h (m_visit (MC (BIA bits values x))) = cnt h (ovisit (getv bits values (idx d h)))).
    { intros h. apply (spread_cnt d p _ (getv bits values) h Hp Hsl). }
    assert (HCr : forall h, cnt h (m_visit (MC (BIA rbits rvalues rx))) = cnt h (ovisit (getv rbits rvalues (idx d h)))).
    { intros h. apply (spread_cnt d p _ (getv rbits rvalues) h Hp Hsr). }
    unfold nstuck at 1, P. split.
    + intros (i & Hi & HPi). destruct (getv bits values i) as [c|] eqn:Hc; [|contradiction].
      destruct (getv rbits rvalues i) as [r|] eqn:Hr; [|contradiction]. destruct HPi as [h Hh]. exists h.
      assert (Hpos : (cnt h (m_visit c) <> 0)%nat) by (destruct (_ <? _) in Hh; lia).
      destruct (cnt_in _ _ Hpos) as (e & He & Hhe).
      assert (Hidx : idx d h = i).
      { rewrite <- Hhe. eapply (spread_key d p _ _ i e Hp Hsl). rewrite Hc. exact He. }
      rewrite HC, HCr, !lev_C, Hidx, Hc, Hr. cbn [ovisit].
      replace (1 + _ <? 1 + _) with (lev c (d + 1) h <? lev r (d + 1) h); [exact Hh|].
      destruct (N.ltb_spec (lev c (d + 1) h) (lev r (d + 1) h)); symmetry; [apply N.ltb_lt|apply N.ltb_ge]; lia.
    + intros [h Hh]. rewrite HC, HCr, !lev_C in Hh. exists (idx d h). split; [apply idx_lt|].
      destruct (getv bits values (idx d h)) as [c|]; cbn [ovisit] in Hh; [|cbn in Hh; destruct (_ <? _) in Hh; lia].
      destruct (getv rbits rvalues (idx d h)) as [r|]; cbn [ovisit] in Hh; [|cbn in Hh; destruct (_ <? _) in Hh; lia].
      exists h. replace (1 + _ <? 1 + _) with (lev c (d + 1) h <? lev r (d + 1) h) in Hh; [exact Hh|].
      destruct (N.ltb_spec (lev c (d + 1) h) (lev r (d + 1) h)); symmetry; [apply N.ltb_lt|apply N.ltb_ge]; lia.
Qed.

End Hang.

(** * Leaves *)
Section Lift.
Context {E : Env} {K V : Type} {KK : Key K}.

(** Whatever is lifted, the flags separate in time. *)
Lemma c_lift_nd fuel : forall d h1 h2 (this : mnode K V) tf right rf,
  h1 <> h2 -> h1 < 2 ^ hbits -> h2 < 2 ^ hbits -> pre d h1 = pre d h2 -> flag_for d h1 tf -> flag_for d h2 rf ->
  hbits <= off d + N.of_nat fuel * log_b fw -> c_lift fuel this tf right rf <> Diverge.
Proof.
  induction fuel as [|fuel IH]; intros d h1 h2 this tf right rf Hne Hh1 Hh2 Hp Ht Hr Hf.
  - exfalso. apply Hne. rewrite <- (pre_full d h1), <- (pre_full d h2) by (cbn in *; lia). assumption.
  - pose proof (neq_off d h1 h2 Hne Hh1 Hh2 Hp) as Hd.
    cbn [c_lift]. rewrite (proj2 (proj2 Ht) Hd), (proj2 (proj2 Hr) Hd), pow2_eqb.
    destruct (N.eqb_spec (idx d h1) (idx d h2)) as [Hi|Hi].
    + assert (Hp' : pre (d + 1) h1 = pre (d + 1) h2) by (rewrite !pre_succ, Hp, Hi; reflexivity).
      pose proof (neq_off (d + 1) h1 h2 Hne Hh1 Hh2 Hp') as Hd'.
      rewrite (flag_next_ok d h1) by assumption. cbn [bind unwrap].
      rewrite (flag_next_ok d h2) by assumption. cbn [bind unwrap].
      apply bind_nd; [|intros; apply unwrap_ok_nd].
      apply (IH (d + 1) h1 h2); try assumption; try (apply flag_for_at; assumption). rewrite off_succ. lia.
    + apply bind_nd; [apply unwrap_ok_nd|intros fl]. apply bind_nd; [apply unwrap_ok_nd|intros i]. apply unwrap_ok_nd.
Qed.

Lemma cnode_lift_nd d h1 h2 (this : mnode K V) tf right rf :
  h1 <> h2 -> h1 < 2 ^ hbits -> h2 < 2 ^ hbits -> pre d h1 = pre d h2 -> flag_for d h1 tf -> flag_for d h2 rf ->
  cnode_lift this tf right rf <> Diverge.
Proof. intros. eapply c_lift_nd; try eassumption. apply lift_fuel_ok. Qed.

End Lift.

Section Leaves.
Context {E : Env} {K V L W : Type} {KK : Key K} {KL : Key L}.

(** Different hashes: nothing is traversed. *)
Lemma lstuck_apart d p (this : lnext K V) (right : lnext L W) : wf d p (next_mnode this) ->
  hashk (next_key this) <> hashk (next_key right) -> ~ lstuck (next_mnode this) right.
Proof.
  intros HW Hh [H1 _]. destruct (cnt_leaf d p this (hashk (next_key right)) HW ltac:(lia)) as [H _]. congruence.
Qed.

Lemma apart_nd {T S X} d p (this : lnext K V) (right : lnext L W) (f : Flag -> Flag -> outcome T) :
  wf d p (next_mnode this) -> wf d p (next_mnode right) -> hashk (next_key this) <> hashk (next_key right) ->
  (forall lf rf, (forall (a b : mnode S X), cnode_lift a lf b rf <> Diverge) -> f lf rf <> Diverge) ->
  (let* (lf, rf) := two_flags (next_key this) (next_key right) d in f lf rf) <> Diverge.
Proof.
  intros HW HWr Hh Hf.
  destruct (leaf_entries _ _ _ HW) as (_ & _ & _ & Hp). destruct (leaf_entries _ _ _ HWr) as (_ & _ & _ & Hpr).
  destruct (two_flags_ok (next_key this) (next_key right) d Hh ltac:(congruence)) as (lf & rf & -> & Hl & Hr). cbn [bind].
  apply Hf. intros a b. eapply cnode_lift_nd; try eassumption; try apply hashk_lt. congruence.
Qed.

Lemma list_next {A B} (r : lnode A B) : (3 <= length (l_visit r))%nat <-> exists l, l_next r = NL l.
Proof.
  destruct r as [k v n z|k v s z]; cbn [l_visit l_next length].
  - split; [eauto|]. intros _. pose proof (length_l n). lia.
  - cbn. split; [lia|]. intros [l [=]].
Qed.

Lemma rights_jx (this : lnode K V) (right : lnode L W) d p : wf d p (ML this) -> hashk (l_key this) = hashk (l_key right) ->
  jx (lstuck (ML this) (NL right)) (rights_loop fuel right right [(l_key right, l_value right)]).
Proof.
  intros HW Hh. rewrite rights_ok.
  assert (HC : (2 <= cnt (hashk (l_key right)) (l_visit this))%nat).
  { rewrite <- Hh. pose proof (cnt_leaf_all d p (NL this) HW) as HC. cbn [next_key next_mnode m_visit] in HC. rewrite HC. apply length_l. }
  unfold lstuck. cbn [next_key next_mnode m_visit]. pose proof (list_next right) as HN.
  destruct (l_next right) as [l|s]; cbn [jx].
  - split; [exact HC|]. apply HN. eauto.
  - intros [_ H3]. apply HN in H3. destruct H3 as [l [=]].
Qed.

Lemma lstuck_ls (this : mnode K V) (right : snode L W) : ~ lstuck this (NS right).
Proof. intros [_ H]. cbn in H. lia. Qed.

Lemma lstuck_sl (this : snode K V) (right : lnext L W) : ~ lstuck (MS this) right.
Proof. intros [H _]. unfold cnt in H. cbn in H. destruct (_ =? _); cbn in H; lia. Qed.

End Leaves.

(** * transmute_with_transmuted *)
Section MM.
Context {E : Env} {S X R : Type} {KS : Key S}.
Context (rdef : R) (rd : R -> R -> R).

Lemma finish_nd {K V} (a : acc K V R) : finish a <> Diverge.
Proof.
  unfold finish. destruct (a_values a) as [|[c|l|s] [|n vs]]; try discriminate;
    (apply bind_nd; [apply unwrap_ok_nd|discriminate]).
Qed.

Lemma m_transmute_nd {K V} {KK : Key K} (op : transmute_op (K * V) S X R) d p n : wf d p n -> m_transmute rdef rd op n <> Diverge.
Proof.
  intros HW. induction HW as [d p s Hs|d p l g HL Hl|d p bits values x Ho Hp Hok Hne Hx Hch IH]; cbn [m_transmute]; try discriminate.
  destruct op as [f|r]; [|discriminate].
  set (rec := m_transmute rdef rd (MGeneric f)) in *.
  apply bind_nd; [|intros a; destruct (_ =? _); [apply finish_nd|discriminate]].
  destruct (run_loop_ok rdef rd Sequential _ _ (c_transmute_steps rd _ _ x rec Hok)) as [[H1 H2]|[(i & Hi & Hf & H2)|(i & Hi & Hf & H2)]];
    cbn [run_loop] in H2; rewrite H2; try discriminate.
  intros _. unfold m_slot in Hf. destruct (getv bits values i) as [c|] eqn:Hc; [|discriminate].
  specialize (IH i c Hc). destruct (rec c); [discriminate|discriminate|contradiction].
Qed.

Definition mm_ac {K V L W} (t : nres S X R) (ol : option (mnode K V)) (or : option (mnode L W)) : outcome (option (mnode S X) * bool * bool) :=
  Ret (nnode t, true, true).

Lemma mm_add_ac {K V L W} a i (ol : option (mnode K V)) (or : option (mnode L W)) t : i < max_ones fw -> okv i (a_bits a) (a_values a) ->
  mm_add rd a i ol or t = let* c := mm_ac t ol or in Ret (after rd (fun _ => Some (fst (fst c), nred t, snd (fst c), snd c)) [i] a).
Proof. intros Hi Ha. unfold mm_add, mm_ac. rewrite push_new_ok by assumption. reflexivity. Qed.

Section Pair.
Context {K V L W : Type} {KK : Key K} {KL : Key L}.
Context (both : transmute_op ((K * V) * (L * W)) S X R) (lop : transmute_op (K * V) S X R) (rop : transmute_op (L * W) S X R).

Lemma mm_apart_nd d p (this : lnext K V) (right : lnext L W) : wf d p (next_mnode this) -> wf d p (next_mnode right) ->
  hashk (next_key this) <> hashk (next_key right) -> mm_apart rd lop rop this right d <> Diverge.
Proof.
  intros HW HWr Hh. unfold mm_apart. apply (apart_nd (S := S) (X := X) d p); try assumption. intros lf rf Hc.
  destruct (nnode (n_transmute rd lop this)); destruct (nnode (n_transmute rd rop right)); try discriminate.
  apply bind_nd; [apply Hc|discriminate].
Qed.

Lemma mm_lnode_jx d p (l : lnode K V) (r : lnode L W) : wf d p (ML l) -> wf d p (ML r) ->
  jx (lstuck (ML l) (NL r)) (mm_lnode rd both lop rop l r d).
Proof.
  intros HW HWr. unfold mm_lnode. destruct (N.eqb_spec (hashk (l_key l)) (hashk (l_key r))) as [Hh|Hh].
  - apply jx_bind; [apply (rights_jx l r d p); assumption|]. intros rights. destruct (mm_l_impl _ _ _ _ _ _). discriminate.
  - apply jx_never; [apply (mm_apart_nd d p (NL l) (NL r)); assumption|apply (lstuck_apart d p (NL l)); assumption].
Qed.

Lemma mm_lsnode_nd d p (l : lnode K V) (r : snode L W) : wf d p (ML l) -> wf d p (MS r) -> mm_lsnode rd both lop rop l r d <> Diverge.
Proof.
  intros HW HWr. unfold mm_lsnode. destruct (N.eqb_spec (hashk (l_key l)) (hashk (s_key r))) as [Hh|Hh]; [discriminate|].
  apply (mm_apart_nd d p (NL l) (NS r)); assumption.
Qed.

Lemma mm_snode_nd d p (l : snode K V) (r : snode L W) : wf d p (MS l) -> wf d p (MS r) -> mm_snode rd both lop rop l r d <> Diverge.
Proof.
  intros HW HWr. unfold mm_snode. destruct (N.eqb_spec (hashk (s_key l)) (hashk (s_key r))) as [Hh|Hh]; [discriminate|].
  apply (mm_apart_nd d p (NS l) (NS r)); assumption.
Qed.

End Pair.

Lemma mm_leaf_jx {K V L W} {KK : Key K} {KL : Key L} (both : transmute_op ((K * V) * (L * W)) S X R) lop rop d p this right :
  wf d p (next_mnode this) -> wf d p (next_mnode right) -> jx (lstuck (next_mnode this) right) (mm_leaf rd both lop rop this right d).
Proof.
  destruct this as [l|l], right as [r|r]; cbn [next_mnode mm_leaf]; intros HW HWr.
  - apply (mm_lnode_jx _ _ _ d p); assumption.
  - apply jx_never; [apply (mm_lsnode_nd _ _ _ d p); assumption|apply lstuck_ls].
  - apply jx_never; [apply (mm_lsnode_nd _ _ _ d p); assumption|apply lstuck_sl].
  - apply jx_never; [apply (mm_snode_nd _ _ _ d p); assumption|apply lstuck_sl].
Qed.

Lemma mm_tree_leaf_jx {K V L W} {KK : Key K} {KL : Key L} (both : transmute_op ((K * V) * (L * W)) S X R) lop rop d p n right :
  wf d p n -> wf d p (next_mnode right) -> jx (lstuck n right) (mm_tree_leaf rdef rd both lop rop right n d).
Proof.
  intros HW HWr. unfold mm_tree_leaf.
  apply (m_leaf_jx (K := K) (V := V) (L := L) (W := W) rdef rd mm_ac nred (mm_add rd) mm_add_ac ltac:(discriminate) finish finish_nd _ _
    (m_transmute_nd lop) (m_transmute_nd rop) _ (mm_leaf_jx both lop rop) n d p right); assumption.
Qed.

Lemma m_mm_jx {K V L W} {KK : Key K} {KL : Key L} (both : transmute_op ((K * V) * (L * W)) S X R) lop rop d p n right :
  wf d p n -> wf d p right -> jx (nstuck d n right) (m_mm rdef rd both lop rop n right d).
Proof.
  intros HW HWr. unfold m_mm.
  apply (m_joint_jx (K := K) (V := V) (L := L) (W := W) rdef rd mm_ac nred (mm_add rd) mm_add_ac ltac:(discriminate) finish finish_nd _ _
    (m_transmute_nd lop) (m_transmute_nd rop) _ (mm_leaf_jx both lop rop) _ _ Sequential (mm_tree_leaf_jx both lop rop)) with (p := p); [|assumption..].
  intros d0 p0 n0 right0 H1 H2. exact (mm_tree_leaf_jx (mflip both) rop lop d0 p0 right0 n0 H2 H1).
Qed.

End MM.

Lemma nstuck_stuck {E : Env} {K V L W} {KK : Key K} {KL : Key L} (m : trie K V) (right : trie L W) : wf 0 0 m -> wf 0 0 right ->
  (nstuck 0 m right <-> stuck m right).
Proof.
  intros HW HWr. unfold nstuck, stuck, map_visit. split.
  - intros [h Hh]. assert (Hpos : (cnt h (m_visit m) <> 0)%nat) by (destruct (_ <? _) in Hh; lia).
    destruct (cnt_in _ _ Hpos) as ([k v] & He & <-). exists k. rewrite !branches_lev by assumption. exact Hh.
  - intros [q Hq]. exists (hashk q). rewrite !branches_lev in Hq by assumption. exact Hq.
Qed.

(** * transform_with_transformed *)
Section TT.
Context {E : Env} {K V R : Type} {KK : Key K}.
Context (rdef : R) (rd : R -> R -> R).

Lemma tt_ac_nd (t : jres K V R) ol or : tt_ac t ol or <> Diverge.
Proof. destruct t, ol, or; discriminate. Qed.
Lemma tt_done_nd (a : acc K V R) : tt_done a <> Diverge.
Proof. unfold tt_done. destruct (a_ul a), (a_ur a); try discriminate. apply bind_nd; [apply finish_nd|discriminate]. Qed.
Lemma tt_lone_nd st op d p (n : mnode K V) : wf d p n -> tt_lone rdef rd st op n <> Diverge.
Proof. intros HW. unfold tt_lone. destruct (m_transform_any rdef rd st op d p n HW) as (t & -> & _). discriminate. Qed.
Lemma tt_rone_nd st op d p (n : mnode K V) : wf d p n -> tt_rone rdef rd st op n <> Diverge.
Proof. intros HW. unfold tt_rone. destruct (m_transform_any rdef rd st op d p n HW) as (t & -> & _). discriminate. Qed.

Lemma tt_apart_nd (lop rop : transform_op (K * V) V R) d p (this right : lnext K V) : wf d p (next_mnode this) -> wf d p (next_mnode right) ->
  hashk (next_key this) <> hashk (next_key right) -> tt_apart rd lop rop this right d <> Diverge.
Proof.
  intros HW HWr Hh. unfold tt_apart. apply (apart_nd (S := K) (X := V) d p); try assumption. intros lf rf Hc.
  destruct (tout (next_mnode this) (n_transform rd lop this)); destruct (tout (next_mnode right) (n_transform rd rop right)); try discriminate.
  apply bind_nd; [apply Hc|discriminate].
Qed.

Lemma jj_nd this result that (next : jres K V R) : jj rd this result that next <> Diverge.
Proof. destruct result, next as [| | |[]], that as [[? ?]|]; cbn; discriminate. Qed.

Lemma tt_l_impl_nd (both : joint_op (K * V) V R) lop rop this : forall rights, tt_l_impl rd both lop rop this rights <> Diverge.
Proof.
  induction this as [k v n IH z|k v s z]; intros rights; cbn [tt_l_impl].
  - apply bind_nd; [apply bind_nd; [apply IH|discriminate]|]. intros [[next rights'] that].
    destruct (take_key _ rights') as [[e r]|]; (apply bind_nd; [apply jj_nd|discriminate]).
  - apply bind_nd; [destruct (take_key _ rights) as [[e r]|]; discriminate|]. intros [[next rights'] that].
    destruct (take_key _ rights') as [[e r]|]; (apply bind_nd; [apply jj_nd|discriminate]).
Qed.

Lemma tt_rest_nd rop this rights : forall next : jres K V R, tt_rest rd rop this rights next <> Diverge.
Proof.
  induction rights as [|e rights IH]; intros next; cbn [tt_rest]; [discriminate|].
  apply bind_nd; [|exact IH]. destruct (tcall rop e), next; discriminate.
Qed.

Lemma tt_lnode_jx (both : joint_op (K * V) V R) lop rop d p (l r : lnode K V) : wf d p (ML l) -> wf d p (ML r) ->
  jx (lstuck (ML l) (NL r)) (tt_lnode rd both lop rop l r d).
Proof.
  intros HW HWr. unfold tt_lnode. destruct (N.eqb_spec (hashk (l_key l)) (hashk (l_key r))) as [Hh|Hh].
  - apply jx_bind; [apply (rights_jx l r d p); assumption|]. intros rights. apply bind_nd; [apply tt_l_impl_nd|].
    intros [next rest]. apply tt_rest_nd.
  - apply jx_never; [apply (tt_apart_nd lop rop d p (NL l) (NL r)); assumption|apply (lstuck_apart d p (NL l)); assumption].
Qed.

Lemma tt_lsnode_nd (both : joint_op (K * V) V R) lop rop d p (l : lnode K V) (r : snode K V) : wf d p (ML l) -> wf d p (MS r) -> tt_lsnode rd both lop rop l r d <> Diverge.
Proof.
  intros HW HWr. unfold tt_lsnode. destruct (N.eqb_spec (hashk (l_key l)) (hashk (s_key r))) as [Hh|Hh]; [discriminate|].
  apply (tt_apart_nd lop rop d p (NL l) (NS r)); assumption.
Qed.

Lemma tt_snode_nd (both : joint_op (K * V) V R) lop rop d p (l r : snode K V) : wf d p (MS l) -> wf d p (MS r) -> tt_snode rd both lop rop l r d <> Diverge.
Proof.
  intros HW HWr. unfold tt_snode. destruct (N.eqb_spec (hashk (s_key l)) (hashk (s_key r))) as [Hh|Hh]; [discriminate|].
  apply (tt_apart_nd lop rop d p (NS l) (NS r)); assumption.
Qed.

Lemma tt_leaf_jx (both : joint_op (K * V) V R) lop rop d p this right :
  wf d p (next_mnode this) -> wf d p (next_mnode right) -> jx (lstuck (next_mnode this) right) (tt_leaf rd both lop rop this right d).
Proof.
  destruct this as [l|l], right as [r|r]; cbn [next_mnode tt_leaf]; intros HW HWr.
  - apply (tt_lnode_jx _ _ _ d p); assumption.
  - apply jx_never; [apply (tt_lsnode_nd _ _ _ d p); assumption|apply lstuck_ls].
  - apply jx_never; [apply bind_nd; [apply (tt_lsnode_nd _ _ _ d p); assumption|discriminate]|apply lstuck_sl].
  - apply jx_never; [apply (tt_snode_nd _ _ _ d p); assumption|apply lstuck_sl].
Qed.

Lemma tt_tree_leaf_jx st (both : joint_op (K * V) V R) lop rop d p n right :
  wf d p n -> wf d p (next_mnode right) -> jx (lstuck n right) (tt_tree_leaf rdef rd st both lop rop right n d).
Proof.
  intros HW HWr. unfold tt_tree_leaf.
  apply (m_leaf_jx rdef rd tt_ac jred (tt_add rd) (tt_add_ac rd) tt_ac_nd tt_done tt_done_nd _ _
    (tt_lone_nd st lop) (tt_rone_nd st rop) _ (tt_leaf_jx both lop rop) n d p right); assumption.
Qed.

Lemma tt_leaf_tree_jx st (both : joint_op (K * V) V R) lop rop d p n right : wf d p (next_mnode n) -> wf d p right ->
  jx ((2 <= cnt (hashk (next_key n)) (m_visit right))%nat /\ (3 <= length (m_visit (next_mnode n)))%nat)
    (tt_leaf_tree rdef rd st both lop rop n right d).
Proof.
  intros H1 H2. unfold tt_leaf_tree. apply jx_bind; [|discriminate].
  exact (tt_tree_leaf_jx st (jflip both) rop lop d p right n H2 H1).
Qed.

(** A pair of branches for which the operations are constants is not traversed. *)
Definition skips (both : joint_op (K * V) V R) lop rop (n right : mnode K V) : Prop :=
  tt_short (R := R) both lop rop <> None /\ (exists c, n = MC c) /\ (exists c, right = MC c).

Lemma m_tt_jx st (both : joint_op (K * V) V R) lop rop d p n right :
  wf d p n -> wf d p right -> jx (~ skips both lop rop n right /\ nstuck d n right) (m_tt rdef rd st both lop rop n right d).
Proof.
  intros HW HWr. unfold m_tt, skips.
  assert (HJ := fun n => m_joint_jx rdef rd tt_ac jred (tt_add rd) (tt_add_ac rd) tt_ac_nd tt_done tt_done_nd _ _
    (tt_lone_nd st lop) (tt_rone_nd st rop) _ (tt_leaf_jx both lop rop) _ _ st (tt_tree_leaf_jx st both lop rop) (tt_leaf_tree_jx st both lop rop) n d p right).
  specialize (HJ n HW HWr). destruct (tt_short both lop rop) as [t|].
  2:{ eapply jx_iff; [|exact HJ]. split; [|tauto]. intros H. split; [|assumption]. intros [H0 _]. apply H0. reflexivity. }
  assert (HS : (exists c, n = MC c) /\ (exists c, right = MC c) \/
    ~ ((exists c, n = MC c) /\ (exists c, right = MC c)) /\
    m_joint rdef rd (tt_add rd) (tt_lone rdef rd st lop) (tt_rone rdef rd st rop) tt_done (tt_leaf rd both lop rop)
      (tt_tree_leaf rdef rd st both lop rop) (tt_leaf_tree rdef rd st both lop rop) (Some t) st n right d =
    m_joint rdef rd (tt_add rd) (tt_lone rdef rd st lop) (tt_rone rdef rd st rop) tt_done (tt_leaf rd both lop rop)
      (tt_tree_leaf rdef rd st both lop rop) (tt_leaf_tree rdef rd st both lop rop) None st n right d).
  { destruct n as [[bits values x]|l|s].
    - destruct right as [[rbits rvalues rx]|r|r]; [left; eauto|right..]; (split; [intros [_ [c [=]]]|reflexivity]).
    - right. split; [intros [[c [=]] _]|reflexivity].
    - right. split; [intros [[c [=]] _]|reflexivity]. }
  destruct HS as [[[c ->] [c' ->]]|[HS ->]].
  - destruct c as [bits values x]. cbn [m_joint jx]. intros [H _]. apply H. split; [discriminate|]. eauto.
  - eapply jx_iff; [|exact HJ]. tauto.
Qed.

End TT.

(** * Maps *)
Section Maps.
Context {E : Env}.

Theorem mm_stuck {K V L W S X R} {KK : Key K} {KL : Key L} {KS : Key S} (rdef : R) rd
  (both : transmute_op ((K * V) * (L * W)) S X R) lop rop (m : trie K V) (right : trie L W) : reachable m -> reachable right ->
  (forall m' r, map_mm rdef rd both lop rop m right = Ret (m', r) -> ~ stuck m right) /\
  (map_mm rdef rd both lop rop m right = Diverge -> stuck m right).
Proof.
  intros HR HRr. apply reachable_mwf in HR, HRr.
  pose proof (m_mm_jx rdef rd both lop rop 0 0 m right HR HRr) as H. apply (jx_iff _ _ _ (nstuck_stuck m right HR HRr)) in H.
  unfold map_mm. destruct (m_mm rdef rd both lop rop m right 0) as [t| |]; cbn [bind jx] in *.
  - split; [intros; exact H|discriminate].
  - split; discriminate.
  - split; [discriminate|auto].
Qed.

(** The root of a map is a branch iff find goes through at least one. *)
Lemma root_branch {K V} {KK : Key K} (m : trie K V) (q : K) : wf 0 0 m -> ((exists c, m = MC c) <-> branches m q <> 0).
Proof.
  intros HW. rewrite branches_lev by assumption. split.
  - intros [[bits values x] ->]. rewrite lev_C. lia.
  - destruct m as [c|l|s]; [eauto|cbn; lia..].
Qed.

Lemma skipped_short {K V R} (both : joint_op (K * V) V R) lop rop :
  tt_short (K := K) (V := V) both lop rop <> None <-> skipped both lop rop.
Proof. destruct both, lop, rop; cbn; split; try discriminate; try tauto; intros H; contradiction H; reflexivity. Qed.

Theorem tt_stuck {K V R} {KK : Key K} (rdef : R) rd st both lop rop (m right : trie K V) : reachable m -> reachable right ->
  (forall m' r o, map_tt rdef rd st both lop rop m right = Ret (m', r, o) -> ~ stuck_tt both lop rop m right) /\
  (map_tt rdef rd st both lop rop m right = Diverge -> stuck_tt both lop rop m right).
Proof.
  intros HR HRr. apply reachable_mwf in HR, HRr.
  pose proof (m_tt_jx rdef rd st both lop rop 0 0 m right HR HRr) as H.
  assert (HS : ~ skips both lop rop m right /\ nstuck 0 m right <-> stuck_tt both lop rop m right).
  { unfold stuck_tt. rewrite (nstuck_stuck m right HR HRr), <- skipped_short. unfold skips. split.
    - intros [H1 H2]. split; [assumption|]. intros Hsh. destruct H2 as [q _]. exists q.
      destruct (N.eq_dec (branches m q) 0) as [|Hm]; [auto|]. destruct (N.eq_dec (branches right q) 0) as [|Hr]; [auto|].
      exfalso. apply H1. split; [assumption|]. split; [apply (root_branch m q HR)|apply (root_branch right q HRr)]; assumption.
    - intros [H1 H2]. split; [|assumption]. intros (Hsh & Hm & Hr). destruct (H2 Hsh) as [q [Hq|Hq]];
        [apply (root_branch m q HR) in Hm|apply (root_branch right q HRr) in Hr]; contradiction. }
  apply (jx_iff _ _ _ HS) in H.
  unfold map_tt. destruct (m_tt rdef rd st both lop rop m right 0) as [t| |]; cbn [bind jx] in *.
  - split; [intros; exact H|destruct t; discriminate].
  - split; discriminate.
  - split; [discriminate|auto].
Qed.

(** With the contracts, which exclude panics. *)
Theorem mm_exact {K V L W S X R} {KK : Key K} {KL : Key L} {KS : Key S} (rdef : R) rd
  (both : transmute_op ((K * V) * (L * W)) S X R) lop rop (m : trie K V) (right : trie L W) : reachable m -> reachable right ->
  (forall e e' k v x, In e (map_visit m) -> In e' (map_visit right) -> cls (fst e) = cls (fst e') ->
     mcall both (e, e') = KTransmuted k v x -> cls k = cls (fst e)) ->
  (forall e k v x, In e (map_visit m) -> mcall lop e = KTransmuted k v x -> cls k = cls (fst e)) ->
  (forall e k v x, In e (map_visit right) -> mcall rop e = KTransmuted k v x -> cls k = cls (fst e)) ->
  ((exists m' r, map_mm rdef rd both lop rop m right = Ret (m', r)) <-> ~ stuck m right) /\
  (map_mm rdef rd both lop rop m right = Diverge <-> stuck m right).
Proof.
  intros HR HRr HB HKl HKr. destruct (mm_stuck rdef rd both lop rop m right HR HRr) as [H1 H2].
  destruct (mm_returns rdef rd both lop rop m right HR HRr HB HKl HKr) as (_ & _ & H3).
  destruct (map_mm rdef rd both lop rop m right) as [[m' r]| |]; [|contradiction|].
  - specialize (H1 m' r eq_refl). split; split; eauto; try discriminate. contradiction.
  - specialize (H2 eq_refl). split; split; auto; [intros (? & ? & [=])|contradiction].
Qed.

Theorem tt_exact {K V R} {KK : Key K} (rdef : R) rd st both lop rop (m right : trie K V) : reachable m -> reachable right ->
  tame both lop rop (map_visit m) (map_visit right) ->
  ((exists m' r o, map_tt rdef rd st both lop rop m right = Ret (m', r, o)) <-> ~ stuck_tt both lop rop m right) /\
  (map_tt rdef rd st both lop rop m right = Diverge <-> stuck_tt both lop rop m right).
Proof.
  intros HR HRr HD. destruct (tt_stuck rdef rd st both lop rop m right HR HRr) as [H1 H2].
  destruct (tt_returns rdef rd st both lop rop m right HR HRr HD) as (_ & _ & H3).
  destruct (map_tt rdef rd st both lop rop m right) as [[[m' r] o]| |]; [|contradiction|].
  - specialize (H1 m' r o eq_refl). split; split; eauto; try discriminate. contradiction.
  - specialize (H2 eq_refl). split; split; auto; [intros (? & ? & ? & [=])|contradiction].
Qed.

End Maps.
