(** When a merge hands back one of its maps: if the other map has no key of its
    own and no two keys of equal hash, and nothing is changed, then the joint
    traversal returns the node it was given. *)
From Coq Require Import NArith Arith List Bool Lia ZifyBool ZifyN ZifyNat Permutation.
From Verif Require Import Base Words WordsP Flag FlagP Bia BiaP Node Spec SpecP Inv NodeP InsertP TrieP Api ApiP
  Trans Transform LoopP SpecT TransformP TransApiP Joint SpecJ JoinP JointP JointMP JointLeafP JointNodeP JointApiP
  JointT JointTLeafP JointTP JointTApiP Reach ReachP MapP TransMapP JointMapP JointTMapP StratP.
Import ListNotations.
Open Scope N_scope.

Definition holds {T} (P : T -> Prop) (o : outcome T) : Prop := forall t, o = Ret t -> P t.

Lemma holds_bind {A B} (P : A -> Prop) (Q : B -> Prop) o (f : A -> outcome B) :
  holds P o -> (forall a, P a -> holds Q (f a)) -> holds Q (let* a := o in f a).
Proof. intros H Hf t. destruct o as [a| |]; cbn [bind]; try discriminate. apply Hf. apply H. reflexivity. Qed.
Lemma holds_ret {T} (P : T -> Prop) t : P t -> holds P (Ret t).
Proof. intros H t' [= <-]. assumption. Qed.

(** * The traversals, for any predicate on results *)
Section Holds.
Context {E : Env} {K V L W S X R T : Type} {KK : Key K} {KL : Key L}.
Context (rdef : R) (rd : R -> R -> R).
Context (ac : T -> option (mnode K V) -> option (mnode L W) -> outcome (option (mnode S X) * bool * bool)) (jr : T -> R).
Context (add : acc S X R -> N -> option (mnode K V) -> option (mnode L W) -> T -> outcome (acc S X R)).
Context (Hadd : forall a i ol or t, i < max_ones fw -> okv i (a_bits a) (a_values a) ->
  add a i ol or t = let* c := ac t ol or in Ret (after rd (fun _ => Some (fst (fst c), jr t, snd (fst c), snd c)) [i] a)).
(** The flag that the predicate preserves: of the left or of the right. *)
Context (flag : cont S X R -> bool) (Hnone : flag None = true).
Context (P : T -> Prop).
Context (Hflag : forall t ol or c, P t -> ac t ol or = Ret c -> flag (Some (fst (fst c), jr t, snd (fst c), snd c)) = true).
Context (done : acc S X R -> outcome T).
Context (Hdone : forall g r, (forall i, In i (range 0 (max_ones fw)) -> flag (g i) = true) -> holds P (done (total g r))).
(** Which pairs of entries make it hold. *)
Context (Q : list (K * V) -> list (L * W) -> Prop).
Context (HQ : forall ln lr ln' lr', hpart ln lr ln' lr' -> Q ln lr -> Q ln' lr').
Context (lone : mnode K V -> outcome T) (rone : mnode L W -> outcome T).
Context (Hlone : forall d p n, wf d p n -> m_visit n <> [] -> Q (m_visit n) [] -> holds P (lone n)).
Context (Hrone : forall d p n, wf d p n -> m_visit n <> [] -> Q [] (m_visit n) -> holds P (rone n)).

Notation scont := (scont ac jr).

Lemma run_holds st step (f : N -> outcome (cont S X R)) : steps rd step f ->
  (forall i, i < max_ones fw -> holds (fun c => flag c = true) (f i)) ->
  holds P (let* a := run_loop rdef rd st step in done a).
Proof.
  intros Hs Hf. destruct (run_loop_ok rdef rd st step f Hs) as [[Hall Hrun]|Hfail].
  - rewrite Hrun. cbn [bind]. apply Hdone. intros i Hi. destruct (Hall i Hi) as [c Hc]. rewrite Hc. cbn [got].
    apply range_in in Hi. apply (Hf i ltac:(lia)). assumption.
  - intros t. destruct Hfail as [(i & _ & _ & ->)|(i & _ & _ & ->)]; discriminate.
Qed.

Lemma scont_holds o ol or : holds P o -> holds (fun c => flag c = true) (scont o ol or).
Proof.
  intros H. unfold scont. eapply holds_bind; [exact H|]. intros t Ht c.
  destruct (ac t ol or) as [a| |] eqn:Ha; cbn [bind]; try discriminate. intros [= <-]. eapply Hflag; eassumption.
Qed.

Context (leaf : lnext K V -> lnext L W -> N -> outcome T).
Context (Hleaf : forall d p this right, wf d p (next_mnode this) -> wf d p (next_mnode right) ->
  Q (m_visit (next_mnode this)) (m_visit (next_mnode right)) -> holds P (leaf this right d)).

Lemma next_nonempty (n : lnext L W) : m_visit (next_mnode n) <> [].
Proof. destruct n as [[]|]; discriminate. Qed.

Lemma m_leaf_holds n : forall d p right, wf d p n -> wf d p (next_mnode right) -> Q (m_visit n) (m_visit (next_mnode right)) ->
  holds P (m_leaf rdef add lone rone done leaf right n d).
Proof.
  intros d p right HW. induction HW as [d p s Hs|d p l h HL Hl|d p bits values x Ho Hp Hok Hne Hx Hch IH]; intros HWr HQn.
  { cbn [m_leaf]. apply (Hleaf d p (NS s)); [constructor|..]; assumption. }
  { cbn [m_leaf]. apply (Hleaf d p (NL l)); [econstructor; eassumption|..]; assumption. }
  assert (HWC : wf d p (MC (BIA bits values x))) by (constructor; assumption).
  cbn [m_leaf]. rewrite flag_at_ok by assumption. cbn [bind unwrap fl_flag].
  pose proof (spread_C _ _ _ _ _ HWC) as Hsl. pose proof (spread_leaf _ _ _ HWr) as Hsr.
  set (j := idx d (hashk (next_key right))) in *.
  assert (HQi : forall i, Q (ovisit (getv bits values i)) (ovisit (if i =? j then Some (next_mnode right) else None))).
  { intros i. eapply HQ; [|exact HQn]. exact (spread_part d p _ _ _ _ i Hp Hsl Hsr). }
  assert (Hpow : forall i, (2 ^ j =? 2 ^ i) = (i =? j)) by (intros i; rewrite pow2_eqb; apply N.eqb_sym).
  pose (f := fun (rec : mnode K V -> N -> outcome T) i => match getv bits values i with
        | Some c => scont (if i =? j then rec c (d + 1) else lone c) (Some c) (Some (next_mnode right))
        | None => if i =? j then scont (rone (next_mnode right)) None (Some (next_mnode right)) else Ret None end).
  assert (Hst : forall rec, steps rd (cl_step add lone rone (2 ^ j) (next_mnode right) d (BIA bits (map (fun c => (c, rec c)) values) x)) (f rec)).
  { intros rec a i Hi Ha. unfold cl_step. rewrite bat_bit_index_slot by assumption. cbn [bind].
    rewrite nth_bit_ok by assumption. cbn [unwrap_ok bind]. rewrite Hpow. unfold f.
    destruct (getv bits values i) as [c|]; destruct (N.eqb_spec i j); try (apply (scont_step rd ac jr add Hadd); assumption).
    cbn [bind]. rewrite after_nil_cont. reflexivity. }
  change (loop (cl_step add lone rone (2 ^ j) (next_mnode right) d (BIA bits (map (fun c => (c, m_leaf rdef add lone rone done leaf right c)) values) x)) (range 0 (max_ones fw)) (acc0 rdef))
    with (run_loop rdef rd Sequential (cl_step add lone rone (2 ^ j) (next_mnode right) d (BIA bits (map (fun c => (c, m_leaf rdef add lone rone done leaf right c)) values) x))).
  apply (run_holds _ _ _ (Hst _)). intros i Hi. unfold f. specialize (HQi i).
  destruct (getv bits values i) as [c|] eqn:Hc; destruct (N.eqb_spec i j) as [Hij|Hij]; cbn [ovisit] in HQi.
  - apply scont_holds. apply (IH i c Hc); [|assumption]. apply (proj2 Hsr). rewrite Hij, N.eqb_refl. reflexivity.
  - apply scont_holds. apply (Hlone _ _ c (Hch i c Hc)); [|assumption]. apply (wf_nonempty _ _ _ (Hch i c Hc)). lia.
  - apply scont_holds. apply (Hrone _ _ _ HWr); [|assumption]. apply next_nonempty.
  - apply holds_ret. exact Hnone.
Qed.

Context (tree_leaf : lnext L W -> mnode K V -> N -> outcome T) (leaf_tree : lnext K V -> mnode L W -> N -> outcome T).
Context (short : option T) (st : strategy).
(** What is known besides of two nodes at the root. *)
Context (G : mnode K V -> mnode L W -> Prop).
Context (Htl : forall d p n right, wf d p n -> wf d p (next_mnode right) -> Q (m_visit n) (m_visit (next_mnode right)) ->
  d <> 0 \/ G n (next_mnode right) -> holds P (tree_leaf right n d)).
Context (Hlt : forall d p n right, wf d p (next_mnode n) -> wf d p right -> Q (m_visit (next_mnode n)) (m_visit right) ->
  d <> 0 \/ G (next_mnode n) right -> holds P (leaf_tree n right d)).
Context (Hshort : forall t, short = Some t -> P t).

Lemma m_joint_holds n : forall d p right, wf d p n -> wf d p right -> Q (m_visit n) (m_visit right) -> d <> 0 \/ G n right ->
  holds P (m_joint rdef rd add lone rone done leaf tree_leaf leaf_tree short st n right d).
Proof.
  intros d p right HW. revert right.
  induction HW as [d p s Hs|d p l h HL Hl|d p bits values x Ho Hp Hok Hne Hx Hch IH]; intros right HWr HQn HG.
  - assert (HWs : wf d p (MS s)) by (constructor; assumption).
    destruct right as [c|r|r]; cbn [m_joint].
    + apply (Hlt d p (NS s)); assumption.
    + apply (Hleaf d p (NS s) (NL r)); assumption.
    + apply (Hleaf d p (NS s) (NS r)); assumption.
  - assert (HWs : wf d p (ML l)) by (econstructor; eassumption).
    destruct right as [c|r|r]; cbn [m_joint].
    + apply (Hlt d p (NL l)); assumption.
    + apply (Hleaf d p (NL l) (NL r)); assumption.
    + apply (Hleaf d p (NL l) (NS r)); assumption.
  - assert (HWC : wf d p (MC (BIA bits values x))) by (constructor; assumption).
    destruct right as [[rbits rvalues rx]|r|r]; cbn [m_joint].
    2:{ apply (Htl d p _ (NL r)); assumption. }
    2:{ apply (Htl d p _ (NS r)); assumption. }
    destruct short as [t|]; [apply holds_ret; apply Hshort; reflexivity|].
    set (M := m_joint rdef rd add lone rone done leaf tree_leaf leaf_tree None st) in *.
    assert (Hokr : okv (max_ones fw) rbits rvalues) by (inversion HWr; assumption).
    pose proof (spread_C _ _ _ _ _ HWC) as Hsl. pose proof (spread_C _ _ _ _ _ HWr) as Hsr.
    assert (HQi : forall i, Q (ovisit (getv bits values i)) (ovisit (getv rbits rvalues i))).
    { intros i. eapply HQ; [|exact HQn]. exact (spread_part d p _ _ _ _ i Hp Hsl Hsr). }
    pose (f := fun (rec : mnode K V -> mnode L W -> N -> outcome T) i => match getv bits values i, getv rbits rvalues i with
        | Some c, Some r => scont (rec c r (d + 1)) (Some c) (Some r)
        | Some c, None => scont (lone c) (Some c) None
        | None, Some r => scont (rone r) None (Some r)
        | None, None => Ret None end).
    assert (Hst : forall rec, steps rd (cc_step add lone rone (BIA bits (map (fun c => (c, fun r => rec c r (d + 1))) values) x) (BIA rbits rvalues rx)) (f rec)).
    { intros rec a i Hi Ha. unfold cc_step. rewrite bat_bit_index_slot by assumption. cbn [bind].
      rewrite (bat_bit_index_get fw (BIA rbits rvalues rx)) by assumption. cbn [bind]. unfold get. cbn [bbits bvalues]. unfold f.
      destruct (getv bits values i) as [c|]; destruct (getv rbits rvalues i) as [r|]; try (apply (scont_step rd ac jr add Hadd); assumption).
      cbn [bind]. rewrite after_nil_cont. reflexivity. }
    apply (run_holds _ _ _ (Hst _)). intros i Hi. unfold f. specialize (HQi i).
    destruct (getv bits values i) as [c|] eqn:Hc; destruct (getv rbits rvalues i) as [r|] eqn:Hr; cbn [ovisit] in HQi.
    + apply scont_holds. apply (IH i c Hc); [|assumption|left; lia]. apply (proj2 Hsr). assumption.
    + apply scont_holds. apply (Hlone _ _ c (Hch i c Hc)); [|assumption]. apply (wf_nonempty _ _ _ (Hch i c Hc)). lia.
    + apply scont_holds. destruct (proj2 Hsr i r Hr) as [_ HWi]. apply (Hrone _ _ r HWi); [|assumption].
      apply (wf_nonempty _ _ _ HWi). lia.
    + apply holds_ret. exact Hnone.
Qed.

End Holds.

(** * When nothing changes *)
Section Kept.
Context {E : Env} {K V R : Type} {KK : Key K}.

Definition keeps_left (o : bres V R) : Prop := match o with BUnchangedLR _ | BUnchangedL _ => True | _ => False end.

Record kept (both : joint_op (K * V) V R) (lop : transform_op (K * V) V R) (ln lr : list (K * V)) : Prop := Kept {
  k_sub : forall c, lookup c lr <> None -> lookup c ln <> None;
  k_free : forall c c', lookup c lr <> None -> lookup c' lr <> None -> hash c = hash c' -> c = c';
  k_lop : forall c e, lookup c ln = Some e -> lookup c lr = None -> stays (tcall lop e);
  k_both : forall c e e', lookup c ln = Some e -> lookup c lr = Some e' -> keeps_left (jcall both e e')
}.

Lemma kept_part both lop ln lr ln' lr' : hpart ln lr ln' lr' -> kept both lop ln lr -> kept both lop ln' lr'.
Proof.
  intros HP [H1 H2 H3 H4]. apply hpart_part in HP. split.
  - intros c Hc. destruct (HP c (or_intror Hc)) as [-> Hb]. apply H1. congruence.
  - intros c c' Hc Hc'. destruct (HP c (or_intror Hc)) as [_ Hb]. destruct (HP c' (or_intror Hc')) as [_ Hb'].
    apply H2; congruence.
  - intros c e Hc Hr. destruct (HP c) as [Ha Hb]; [left; congruence|]. apply (H3 c); congruence.
  - intros c e e' Hc Hr. destruct (HP c) as [Ha Hb]; [left; congruence|]. apply (H4 c); congruence.
Qed.

Definition jl (t : jres K V R) : Prop := match t with JLR _ | JL _ => True | _ => False end.
Definition jrt (t : jres K V R) : Prop := match t with JLR _ | JR _ => True | _ => False end.

End Kept.

(** * transform_with_transformed *)
Section TT.
Context {E : Env} {K V R : Type} {KK : Key K}.
Context (rdef : R) (rd : R -> R -> R) (st : strategy).

Lemma m_stays op d p (n : mnode K V) : wf d p n -> m_visit n <> [] -> (forall e, In e (m_visit n) -> stays (tcall op e)) ->
  holds (fun t => tu t = true) (m_transform rdef rd st op n).
Proof.
  intros HW Hne Hs t Ht. destruct op as [f|r|r].
  - destruct (m_transform_ok rdef rd st f d p n HW) as (t' & Ht' & (_ & Hu & _) & _). rewrite Ht in Ht'. injection Ht' as <-.
    rewrite Hu. apply forallb_forall. intros e He. specialize (Hs e He). destruct (tcall (TGeneric f) e); try contradiction. reflexivity.
  - destruct n as [[]|[]|]; injection Ht as <-; reflexivity.
  - destruct (m_visit n) as [|e l]; [contradiction|]. destruct (Hs e (or_introl eq_refl)).
Qed.

Lemma next_stays op d p (n : lnext K V) : wf d p (next_mnode n) -> (forall e, In e (m_visit (next_mnode n)) -> stays (tcall op e)) ->
  tu (n_transform rd op n) = true.
Proof.
  intros HW Hs. eapply (m_stays op d p (next_mnode n) HW); [|exact Hs|]; destruct n as [[]|]; try discriminate; reflexivity.
Qed.

Lemma free_single d p (r : lnode K V) : wf d p (ML r) ->
  ~ (forall c c', lookup c (l_visit r) <> None -> lookup c' (l_visit r) <> None -> hash c = hash c' -> c = c').
Proof.
  intros HWr H2. inversion HWr as [|? ? ? h HL Hp|]; subst. destruct HL as (HL & HUr & Hh).
    assert (Hd : exists e1 e2, In e1 (l_visit r) /\ In e2 (l_visit r) /\ ecls e1 <> ecls e2).
    { destruct r as [k v n z|k v n z]; cbn [l_visit] in *; apply uniq_cons in HUr; destruct HUr as [Hn HUr].
      - destruct (l_visit n) as [|e l] eqn:He; [destruct n; discriminate|]. exists (k, v), e.
        split; [left; reflexivity|]. split; [right; left; reflexivity|]. intros Hc. rewrite Hc in Hn.
        rewrite (in_lookup _ _ HUr (or_introl eq_refl)) in Hn. discriminate.
      - exists (k, v), ((s_key n, s_value n)). split; [left; reflexivity|]. split; [right; left; reflexivity|]. intros Hc. rewrite Hc in Hn.
        rewrite (in_lookup _ _ HUr (or_introl eq_refl)) in Hn. discriminate. }
    destruct Hd as (e1 & e2 & He1 & He2 & Hne). apply Hne. apply H2; cbn [next_mnode m_visit].
    - rewrite (in_lookup _ _ HUr He1). discriminate.
    - rewrite (in_lookup _ _ HUr He2). discriminate.
    - rewrite !Hh by assumption. reflexivity.
Qed.

Section Left.
Context (both : joint_op (K * V) V R) (lop rop : transform_op (K * V) V R).
Notation s_e s := (s_key s, s_value s).

Lemma jl_flag t ol or c : jl t -> tt_ac t ol or = Ret c ->
  cl (Some (fst (fst c), jred t, snd (fst c), snd c) : cont K V R) = true.
Proof.
  destruct t; cbn [jl tt_ac]; intros H; try contradiction; destruct ol; try discriminate; intros [= <-]; reflexivity.
Qed.
Lemma jrt_flag t ol or c : jrt t -> tt_ac t ol or = Ret c ->
  cu (Some (fst (fst c), jred t, snd (fst c), snd c) : cont K V R) = true.
Proof.
  destruct t; cbn [jrt tt_ac]; intros H; try contradiction; destruct ol; destruct or; try discriminate; intros [= <-]; reflexivity.
Qed.
Lemma jl_done (g : N -> cont K V R) (r : R) : (forall i, In i (range 0 (max_ones fw)) -> cl (g i) = true) -> holds jl (tt_done (total g r)).
Proof.
  intros H. assert (Hg : a_ul (total g r) = true) by (apply forallb_forall; exact H). unfold tt_done. rewrite Hg.
  destruct (a_ur (total g r)); apply holds_ret; exact I.
Qed.
Lemma jrt_done (g : N -> cont K V R) (r : R) : (forall i, In i (range 0 (max_ones fw)) -> cu (g i) = true) -> holds jrt (tt_done (total g r)).
Proof.
  intros H. assert (Hg : a_ur (total g r) = true) by (apply forallb_forall; exact H). unfold tt_done. rewrite Hg.
  destruct (a_ul (total g r)); apply holds_ret; exact I.
Qed.

(** ** Leaves *)
Lemma ls_left h (l : lnode K V) (s : snode K V) : lok l -> uniq (l_visit l) -> (forall e, In e (l_visit l) -> hash (ecls e) = h) ->
  (exists e, In e (l_visit l) /\ ecls e = cls (s_key s) /\ keeps_left (jcall both e (s_e s))) ->
  (forall e, In e (l_visit l) -> ecls e <> cls (s_key s) -> stays (tcall lop e)) ->
  jl (tt_ls_impl rd both lop rop l s).
Proof.
  assert (HS : forall k v (nx : lnext K V) (t : jres K V R), (exists d p, wf d p (next_mnode nx)) -> uniq ((k, v) :: m_visit (next_mnode nx)) ->
    (exists e, In e ((k, v) :: m_visit (next_mnode nx)) /\ ecls e = cls (s_key s) /\ keeps_left (jcall both e (s_e s))) ->
    (forall e, In e ((k, v) :: m_visit (next_mnode nx)) -> ecls e <> cls (s_key s) -> stays (tcall lop e)) ->
    ((exists e, In e (m_visit (next_mnode nx)) /\ ecls e = cls (s_key s) /\ keeps_left (jcall both e (s_e s))) -> jl t) ->
    jl (if keqb k (s_key s) then
        jt rd (l_new k v nx) (jcall both (k, v) (s_e s)) s (n_transform rd lop nx)
      else tj rd (l_new k v nx) (tcall lop (k, v)) s t)).
  { intros k v nx t (d & p & HW) HU (e & He & Hc & Hk) Hs Ht. apply uniq_cons in HU. destruct HU as [Hn HU]. rewrite keqb_cls.
    destruct (ceqb_spec (cls k) (cls (s_key s))) as [Hks|Hks].
    - assert (e = (k, v)) as ->.
      { destruct He as [<-|He]; [reflexivity|]. exfalso. pose proof (in_lookup _ _ HU He) as Hl. rewrite Hc, <- Hks in Hl.
        change (ecls (k, v)) with (cls k) in Hn. congruence. }
      assert (Hu : tu (n_transform rd lop nx) = true).
      { apply (next_stays lop d p nx HW). intros e1 He1. apply Hs; [right; assumption|]. intros Hc1.
        pose proof (in_lookup _ _ HU He1) as Hl. rewrite Hc1, <- Hks in Hl. change (ecls (k, v)) with (cls k) in Hn. congruence. }
      unfold jt. destruct (jcall both (k, v) (s_e s)); try contradiction; destruct (n_transform rd lop nx); try discriminate; exact I.
    - assert (Hst : stays (tcall lop (k, v))) by (apply Hs; [left; reflexivity|exact Hks]).
      assert (Hj : jl t).
      { apply Ht. destruct He as [<-|He]; [contradiction|eauto]. }
      unfold tj. destruct (tcall lop (k, v)); try contradiction. destruct t; try contradiction; exact I. }
  induction l as [k v n IH z|k v s' z]; cbn [lok]; intros Hl HU Hh He Hs.
  - destruct Hl as [-> Hl]. cbn [l_visit] in *. pose proof HU as HU'. apply uniq_cons in HU'. destruct HU' as [_ HUn].
    apply (HS k v (NL n)); try assumption.
    + exists 0, 0. apply (wf_L _ _ n h); [|apply pre_0]. split; [assumption|]. split; [assumption|].
      intros e1 H1. apply Hh. right. assumption.
    + intros He'. apply IH; try assumption; intros e1 H1; [apply Hh|apply Hs]; right; assumption.
  - subst z. apply (HS k v (NS s')); try assumption.
    + exists 0, 0. constructor. apply pre_0.
    + intros (e & [<-|[]] & Hc & Hk). unfold tt_s_impl. rewrite keqb_cls.
      destruct (ceqb_spec (cls (s_key s')) (cls (s_key s))) as [_|Hno]; [|contradiction].
      destruct (jcall both _ _); try contradiction; exact I.
Qed.

Lemma single_lookup (s : snode K V) c : lookup c (s_visit s) = if ceqb (cls (s_key s)) c then Some (s_e s) else None.
Proof. reflexivity. Qed.

Lemma leaf_left d p this right : wf d p (next_mnode this) -> wf d p (next_mnode right) ->
  kept both lop (m_visit (next_mnode this)) (m_visit (next_mnode right)) -> holds jl (tt_leaf rd both lop rop this right d).
Proof.
  intros HW HWr [H1 H2 H3 H4].
  assert (HU : uniq (m_visit (next_mnode this))) by (eapply wf_uniq; eassumption).
  destruct right as [r|r].
  { exfalso. exact (free_single d p r HWr H2). }
  cbn [next_mnode m_visit] in H1, H2, H3, H4.
  assert (Hr : lookup (cls (s_key r)) (s_visit r) = Some (s_e r)).
  { rewrite single_lookup. destruct (ceqb_spec (cls (s_key r)) (cls (s_key r))); [reflexivity|contradiction]. }
  destruct (lookup (cls (s_key r)) (m_visit (next_mnode this))) as [e|] eqn:He; [|exfalso; apply (H1 (cls (s_key r))); congruence].
  pose proof (H4 _ _ _ He Hr) as Hk. apply lookup_in in He. destruct He as [He Hc].
  assert (Hst : forall e, In e (m_visit (next_mnode this)) -> ecls e <> cls (s_key r) -> stays (tcall lop e)).
  { intros e1 He1 Hc1. apply (H3 (ecls e1)); [apply in_lookup; assumption|]. rewrite single_lookup.
    destruct (ceqb_spec (cls (s_key r)) (ecls e1)); [congruence|reflexivity]. }
  destruct this as [l|s]; cbn [tt_leaf next_mnode m_visit] in *.
  - inversion HW as [|? ? ? h HL Hp|]; subst. destruct HL as (HL & _ & Hh). unfold tt_lsnode.
    assert (Hk' : hashk (l_key l) = hashk (s_key r)).
    { unfold hashk. rewrite <- Hc, (Hh e He). destruct l as [k v n z|k v n z]; apply (Hh (k, v)); left; reflexivity. }
    rewrite Hk', N.eqb_refl. apply holds_ret. eapply ls_left; try eassumption. eauto.
  - destruct He as [<-|[]]. unfold tt_snode. assert (Hk' : hashk (s_key s) = hashk (s_key r)) by (unfold hashk; rewrite <- Hc; reflexivity).
    rewrite Hk', N.eqb_refl. apply holds_ret. unfold tt_s_impl. rewrite keqb_cls.
    destruct (ceqb_spec (cls (s_key s)) (cls (s_key r))) as [_|Hno]; [|contradiction].
    destruct (jcall both _ _); try contradiction; exact I.
Qed.

Lemma lone_left d p (n : mnode K V) : wf d p n -> m_visit n <> [] -> kept both lop (m_visit n) [] -> holds jl (tt_lone rdef rd st lop n).
Proof.
  intros HW Hne [_ _ H3 _]. unfold tt_lone. eapply holds_bind.
  - eapply (m_stays lop d p n HW Hne). intros e He. apply (H3 (ecls e)); [|reflexivity]. apply in_lookup; [|assumption]. eapply wf_uniq; eassumption.
  - intros [r|n'] Hu; [|discriminate]. apply holds_ret. exact I.
Qed.
Lemma lone_right d p (n : mnode K V) op : wf d p n -> m_visit n <> [] -> kept op rop (m_visit n) [] -> holds jrt (tt_rone rdef rd st rop n).
Proof.
  intros HW Hne [_ _ H3 _]. unfold tt_rone. eapply holds_bind.
  - eapply (m_stays rop d p n HW Hne). intros e He. apply (H3 (ecls e)); [|reflexivity]. apply in_lookup; [|assumption]. eapply wf_uniq; eassumption.
  - intros [r|n'] Hu; [|discriminate]. apply holds_ret. exact I.
Qed.

Lemma kept_void (op : joint_op (K * V) V R) op' (l : list (K * V)) : uniq l -> l <> [] -> kept op op' [] l -> False.
Proof.
  intros HU Hne [H1 _ _ _]. destruct l as [|e l]; [contradiction|]. apply (H1 (ecls e)); [|reflexivity].
  rewrite (in_lookup _ _ HU (or_introl eq_refl)). discriminate.
Qed.

Lemma flip_keeps (e e' : K * V) : ~ one_sided both -> keeps_left (jcall (jflip both) e' e) ->
  match jcall both e e' with BUnchangedLR _ | BUnchangedR _ => True | _ => False end.
Proof.
  destruct both as [f b| | | |]; cbn [one_sided jflip]; try (intros H; contradiction H; exact I); intros _; try exact (fun H => H).
  change (JGeneric f (negb b)) with (jflip (JGeneric f b)). rewrite jcall_flip. destruct (jcall (JGeneric f b) e e'); exact (fun H => H).
Qed.

End Left.

(** A leaf that comes back as the right side. *)
Lemma leaf_right (both : joint_op (K * V) V R) (lop rop : transform_op (K * V) V R) d p this right : ~ one_sided both -> wf d p (next_mnode this) -> wf d p (next_mnode right) ->
  kept (jflip both) rop (m_visit (next_mnode right)) (m_visit (next_mnode this)) -> holds jrt (tt_leaf rd both lop rop this right d).
Proof.
  intros Hn HW HWr HK. pose proof (leaf_left (jflip both) rop lop d p right this HWr HW HK) as HL.
  destruct this as [l|s].
  { exfalso. exact (free_single d p l HW (k_free _ _ _ _ HK)). }
  destruct right as [r|r]; cbn [tt_leaf] in *.
  - eapply holds_bind; [exact HL|]. intros [] Hj; try contradiction; apply holds_ret; exact I.
  - destruct HK as [H1 _ _ H4]. cbn [next_mnode m_visit] in *.
    assert (Hs : lookup (cls (s_key s)) (s_visit s) = Some (s_key s, s_value s)).
    { rewrite single_lookup. destruct (ceqb_spec (cls (s_key s)) (cls (s_key s))); [reflexivity|contradiction]. }
    assert (Hc : cls (s_key r) = cls (s_key s)).
    { specialize (H1 (cls (s_key s))). rewrite Hs in H1. rewrite single_lookup in H1.
      destruct (ceqb_spec (cls (s_key r)) (cls (s_key s))); [assumption|]. exfalso. apply H1; [discriminate|reflexivity]. }
    assert (Hr : lookup (cls (s_key s)) (s_visit r) = Some (s_key r, s_value r)).
    { rewrite single_lookup. destruct (ceqb_spec (cls (s_key r)) (cls (s_key s))); [reflexivity|contradiction]. }
    pose proof (flip_keeps both _ _ Hn (H4 _ _ _ Hr Hs)) as Hk.
    unfold tt_snode. assert (Hk' : hashk (s_key s) = hashk (s_key r)) by (unfold hashk; rewrite Hc; reflexivity).
    rewrite Hk', N.eqb_refl. apply holds_ret. unfold tt_s_impl. rewrite keqb_cls.
    destruct (ceqb_spec (cls (s_key s)) (cls (s_key r))) as [_|Hno]; [|congruence].
    destruct (jcall both _ _); try contradiction; exact I.
Qed.

Lemma tree_leaf_left (both : joint_op (K * V) V R) (lop rop : transform_op (K * V) V R) d p n right : wf d p n -> wf d p (next_mnode right) ->
  kept both lop (m_visit n) (m_visit (next_mnode right)) -> holds jl (tt_tree_leaf rdef rd st both lop rop right n d).
Proof.
  intros HW HWr HK. unfold tt_tree_leaf.
  refine (m_leaf_holds rdef rd tt_ac jred (tt_add rd) (tt_add_ac rd) cl eq_refl jl jl_flag tt_done jl_done (kept both lop)
    (kept_part both lop) _ _ (lone_left both lop) _ _ (leaf_left both lop rop) n d p right HW HWr HK).
  intros d0 p0 n0 HW0 Hne HK0. exfalso. eapply (kept_void both lop); [|exact Hne|exact HK0]. eapply wf_uniq; eassumption.
Qed.
Lemma tree_leaf_right (both : joint_op (K * V) V R) (lop rop : transform_op (K * V) V R) d p n right : ~ one_sided both -> wf d p n -> wf d p (next_mnode right) ->
  kept (jflip both) rop (m_visit (next_mnode right)) (m_visit n) -> holds jrt (tt_tree_leaf rdef rd st both lop rop right n d).
Proof.
  intros Hn HW HWr HK. unfold tt_tree_leaf.
  refine (m_leaf_holds rdef rd tt_ac jred (tt_add rd) (tt_add_ac rd) cu eq_refl jrt jrt_flag tt_done jrt_done
    (fun ln lr => kept (jflip both) rop lr ln) _ _ _ _ _ _ _ n d p right HW HWr HK).
  - intros ln lr ln' lr' HP. apply kept_part. apply hpart_flip. assumption.
  - intros d0 p0 n0 HW0 Hne HK0. exfalso. eapply (kept_void (jflip both) rop); [|exact Hne|exact HK0]. eapply wf_uniq; eassumption.
  - intros d0 p0 n0 HW0 Hne HK0. eapply lone_right; eassumption.
  - intros d0 p0 this0 right0 H1 H2 H3. eapply leaf_right; eassumption.
Qed.

Lemma flip_one_sided (op : joint_op (K * V) V R) : ~ one_sided op -> ~ one_sided (jflip op).
Proof. destruct op; exact (fun H => H). Qed.

Definition not_removed (op : transform_op (K * V) V R) : Prop := match op with TRemoved _ => False | _ => True end.

Lemma m_tt_left (both : joint_op (K * V) V R) (lop rop : transform_op (K * V) V R) d p n right : ~ one_sided both -> not_removed lop -> wf d p n -> wf d p right ->
  kept both lop (m_visit n) (m_visit right) -> holds jl (m_tt rdef rd st both lop rop n right d).
Proof.
  intros Hn Hr HW HWr HK. unfold m_tt.
  refine (m_joint_holds rdef rd tt_ac jred (tt_add rd) (tt_add_ac rd) cl eq_refl jl jl_flag tt_done jl_done (kept both lop)
    (kept_part both lop) _ _ (lone_left both lop) _ _ (leaf_left both lop rop) _ _ _ st (fun _ _ => True) (fun d p n r H1 H2 H3 _ => tree_leaf_left both lop rop d p n r H1 H2 H3) _ _ n d p right HW HWr HK (or_intror I)).
  - intros d0 p0 n0 HW0 Hne HK0. exfalso. eapply (kept_void both lop); [|exact Hne|exact HK0]. eapply wf_uniq; eassumption.
  - intros d0 p0 n0 right0 H1 H2 H3 _. unfold tt_leaf_tree. eapply holds_bind.
    + apply (tree_leaf_right (jflip both) rop lop d0 p0 right0 n0 (flip_one_sided _ Hn) H2 H1). rewrite jflip_flip. exact H3.
    + intros [] Hj; try contradiction; apply holds_ret; exact I.
  - intros t. unfold tt_short. destruct both; try contradiction (Hn I); destruct lop; try contradiction; destruct rop; try discriminate;
      intros [= <-]; exact I.
Qed.

Lemma m_tt_right (both : joint_op (K * V) V R) (lop rop : transform_op (K * V) V R) d p n right : ~ one_sided both -> not_removed rop -> wf d p n -> wf d p right ->
  kept (jflip both) rop (m_visit right) (m_visit n) -> holds jrt (m_tt rdef rd st both lop rop n right d).
Proof.
  intros Hn Hr HW HWr HK. unfold m_tt.
  refine (m_joint_holds rdef rd tt_ac jred (tt_add rd) (tt_add_ac rd) cu eq_refl jrt jrt_flag tt_done jrt_done
    (fun ln lr => kept (jflip both) rop lr ln) _ _ _ _ _ _ _ _ _ _ st (fun _ _ => True) _ _ _ n d p right HW HWr HK (or_intror I)).
  - intros ln lr ln' lr' HP. apply kept_part. apply hpart_flip. assumption.
  - intros d0 p0 n0 HW0 Hne HK0. exfalso. eapply (kept_void (jflip both) rop); [|exact Hne|exact HK0]. eapply wf_uniq; eassumption.
  - intros d0 p0 n0 HW0 Hne HK0. eapply lone_right; eassumption.
  - intros d0 p0 this0 right0 H1 H2 H3. eapply leaf_right; eassumption.
  - intros d0 p0 n0 right0 H1 H2 H3 _. eapply tree_leaf_right; eassumption.
  - intros d0 p0 n0 right0 H1 H2 H3 _. unfold tt_leaf_tree. eapply holds_bind.
    + apply (tree_leaf_left (jflip both) rop lop d0 p0 right0 n0 H2 H1 H3).
    + intros [] Hj; try contradiction; apply holds_ret; exact I.
  - intros t. unfold tt_short. destruct both; try contradiction (Hn I); destruct lop; try discriminate; destruct rop; try discriminate;
      try contradiction; intros [= <-]; exact I.
Qed.

End TT.

(** * Maps *)
Section Maps.
Context {E : Env} {K V R : Type} {KK : Key K}.
Context (rdef : R) (rd : R -> R -> R) (st : strategy).

Lemma kept_of (both : joint_op (K * V) V R) lop (m right : trie K V) : reachable m -> reachable right ->
  (forall e', In e' (map_visit right) -> exists e, In e (map_visit m) /\ cls (fst e) = cls (fst e')) ->
  (forall e e', In e (map_visit right) -> In e' (map_visit right) -> hash (cls (fst e)) = hash (cls (fst e')) -> cls (fst e) = cls (fst e')) ->
  (forall e, In e (map_visit m) -> (forall e', In e' (map_visit right) -> cls (fst e) <> cls (fst e')) -> exists x, tcall lop e = VUnchanged x) ->
  (forall e e', In e (map_visit m) -> In e' (map_visit right) -> cls (fst e) = cls (fst e') ->
     exists x, jcall both e e' = BUnchangedLR x \/ jcall both e e' = BUnchangedL x) ->
  kept both lop (map_visit m) (map_visit right).
Proof.
  intros HR HRr H1 H2 H3 H4.
  assert (HU : uniq (map_visit m)) by (apply mwf_uniq, reachable_mwf; assumption).
  assert (HUr : uniq (map_visit right)) by (apply mwf_uniq, reachable_mwf; assumption).
  assert (HI : forall c (l : list (K * V)), lookup c l <> None -> exists e, In e l /\ ecls e = c).
  { intros c l Hc. destruct (lookup c l) as [e|] eqn:He; [|contradiction]. apply lookup_in in He. eauto. }
  split.
  - intros c Hc. destruct (HI _ _ Hc) as (e' & He' & <-). destruct (H1 e' He') as (e & He & Hce).
    unfold ecls in *. rewrite <- Hce. change (cls (fst e)) with (ecls e). rewrite (in_lookup _ _ HU He). discriminate.
  - intros c c' Hc Hc'. destruct (HI _ _ Hc) as (e & He & <-). destruct (HI _ _ Hc') as (e' & He' & <-). apply H2; assumption.
  - intros c e He Hn. apply lookup_in in He. destruct He as [He <-]. destruct (H3 e He) as [x Hx]; [|rewrite Hx; exact I].
    intros e' He' Hc. pose proof (in_lookup _ _ HUr He') as Hl. unfold ecls in *. rewrite Hc in Hn. congruence.
  - intros c e e' He He'. apply lookup_in in He. apply lookup_in in He'. destruct He as [He <-], He' as [He' Hc].
    destruct (H4 e e' He He' (eq_sym Hc)) as [x [-> | ->]]; exact I.
Qed.

Lemma kept_free_plural (both : joint_op (K * V) V R) lop ln lr h : kept both lop ln lr -> ~ plural h lr.
Proof. intros [_ H _ _] (c & c' & Hne & H1 & H2 & H3 & H4). apply Hne. apply H; congruence. Qed.

Lemma kept_tame (both : joint_op (K * V) V R) lop rop ln lr : kept both lop ln lr -> tame both lop rop ln lr.
Proof.
  intros HK. split; intros h Hp.
  - split; [intros H; destruct (kept_free_plural _ _ _ _ h HK H)|]. intros _. destruct HK as [H1 H2 H3 H4]. split.
    + intros e e' e1 (Hh & He & He') Hk. pose proof (H4 _ _ _ He He') as Hl. destruct (jcall both e e'); contradiction.
    + intros e' e1 e2 (Hh & He & He') _ _. exfalso. apply (H1 (ecls e')); congruence.
  - destruct (kept_free_plural _ _ _ _ h HK Hp).
Qed.
Lemma kept_tame_right (both : joint_op (K * V) V R) lop rop ln lr : kept (jflip both) rop lr ln -> tame both lop rop ln lr.
Proof.
  intros HK. pose proof (kept_tame (jflip both) rop lop lr ln HK) as [H1 H2]. rewrite jflip_flip in H2. split; assumption.
Qed.

Lemma kept_cnt both lop (m right : trie K V) h : reachable right -> kept (R := R) both lop (map_visit m) (map_visit right) ->
  (cnt h (map_visit right) <= 1)%nat.
Proof.
  intros HR [_ H _ _]. pose proof (mwf_uniq _ (reachable_mwf _ HR)) as HU. apply (cnt_free rdef rd); [assumption|].
  intros e e' He He' Hh. apply (H (ecls e) (ecls e')); [rewrite (in_lookup _ _ HU He)|rewrite (in_lookup _ _ HU He')|]; [discriminate..|exact Hh].
Qed.

Theorem tt_keep_left both lop rop (m right : trie K V) : reachable m -> reachable right ->
  ~ one_sided both -> (forall x, lop <> TRemoved x) ->
  (forall e', In e' (map_visit right) -> exists e, In e (map_visit m) /\ cls (fst e) = cls (fst e')) ->
  (forall e e', In e (map_visit right) -> In e' (map_visit right) -> hash (cls (fst e)) = hash (cls (fst e')) -> cls (fst e) = cls (fst e')) ->
  (forall e, In e (map_visit m) -> (forall e', In e' (map_visit right) -> cls (fst e) <> cls (fst e')) -> exists x, tcall lop e = VUnchanged x) ->
  (forall e e', In e (map_visit m) -> In e' (map_visit right) -> cls (fst e) = cls (fst e') ->
     exists x, jcall both e e' = BUnchangedLR x \/ jcall both e e' = BUnchangedL x) ->
  exists r, map_tt rdef rd st both lop rop m right = Ret (m, r, Self).
Proof.
  intros HR HRr Hn Hl H1 H2 H3 H4. pose proof (kept_of both lop m right HR HRr H1 H2 H3 H4) as HK.
  assert (Hl' : not_removed lop) by (destruct lop as [f|x|x]; [exact I|exact I|exact (Hl x eq_refl)]).
  destruct (tt_returns rdef rd st both lop rop m right HR HRr (kept_tame _ _ rop _ _ HK)) as [Hret _].
  destruct Hret as (m' & r & o & HT).
  { intros h. right. left. eapply kept_cnt; eassumption. }
  pose proof (m_tt_left rdef rd st both lop rop 0 0 m right Hn Hl' (reachable_mwf _ HR) (reachable_mwf _ HRr) HK) as HJ.
  rewrite HT. unfold map_tt in HT. destruct (m_tt rdef rd st both lop rop m right 0) as [t| |]; cbn [bind] in HT; try discriminate.
  specialize (HJ t eq_refl). destruct t; try contradiction; injection HT as <- <- <-; eauto.
Qed.

Theorem tt_keep_right both lop rop (m right : trie K V) : reachable m -> reachable right ->
  ~ one_sided both -> (forall x, rop <> TRemoved x) ->
  (forall e, In e (map_visit m) -> exists e', In e' (map_visit right) /\ cls (fst e') = cls (fst e)) ->
  (forall e e', In e (map_visit m) -> In e' (map_visit m) -> hash (cls (fst e)) = hash (cls (fst e')) -> cls (fst e) = cls (fst e')) ->
  (forall e', In e' (map_visit right) -> (forall e, In e (map_visit m) -> cls (fst e') <> cls (fst e)) -> exists x, tcall rop e' = VUnchanged x) ->
  (forall e e', In e (map_visit m) -> In e' (map_visit right) -> cls (fst e) = cls (fst e') ->
     exists x, jcall both e e' = BUnchangedLR x \/ jcall both e e' = BUnchangedR x) ->
  exists r, map_tt rdef rd st both lop rop m right = Ret (right, r, Right) \/
    map_tt rdef rd st both lop rop m right = Ret (m, r, Self) /\
      forall e', In e' (map_visit right) -> exists e, In e (map_visit m) /\ cls (fst e) = cls (fst e').
Proof.
  intros HR HRr Hn Hl H1 H2 H3 H4.
  assert (HK : kept (jflip both) rop (map_visit right) (map_visit m)).
  { apply kept_of; try assumption. intros e' e He' He Hc. destruct (H4 e e' He He' (eq_sym Hc)) as [x Hx]. exists x.
    destruct both as [f b| | | |]; cbn [one_sided] in Hn; try (contradiction Hn; exact I);
      [rewrite jcall_flip; destruct Hx as [-> | ->]; cbn; auto|cbn in *; destruct Hx as [H|H]; try discriminate; auto..]. }
  assert (Hl' : not_removed rop) by (destruct rop as [f|x|x]; [exact I|exact I|exact (Hl x eq_refl)]).
  pose proof (kept_tame_right both lop rop _ _ HK) as HD.
  destruct (tt_returns rdef rd st both lop rop m right HR HRr HD) as [Hret _].
  destruct Hret as (m' & r & o & HT).
  { intros h. left. eapply (kept_cnt _ _ right m); eassumption. }
  pose proof (m_tt_right rdef rd st both lop rop 0 0 m right Hn Hl' (reachable_mwf _ HR) (reachable_mwf _ HRr) HK) as HJ.
  exists r. pose proof HT as HT'. unfold map_tt in HT'.
  destruct (m_tt rdef rd st both lop rop m right 0) as [t| |]; cbn [bind] in HT'; try discriminate.
  specialize (HJ t eq_refl). destruct t; try contradiction; injection HT' as <- <- <-; [|left; exact HT].
  right. split; [exact HT|]. intros e' He'.
  destruct (tt_exact rdef rd st both lop rop m right m _ _ HR HRr HD Hn HT) as [(fB & HM & _) _].
  pose proof (mwf_uniq _ (reachable_mwf _ HR)) as HU. pose proof (mwf_uniq _ (reachable_mwf _ HRr)) as HUr.
  destruct (lookup (ecls e') (map_visit m)) as [e|] eqn:He.
  - apply lookup_in in He. destruct He as [He Hc]. exists e. split; [assumption|exact Hc].
  - exfalso. destruct (H3 e' He') as [x Hx].
    { intros e He1 Hc. pose proof (in_lookup _ _ HU He1) as Hl1. unfold ecls in *. rewrite Hc in He. congruence. }
    pose proof (im_find _ _ _ _ _ _ HM K KK (fst e')) as Hf. unfold ecls in He.
    rewrite !map_find_ok in Hf by (apply reachable_mwf; assumption). rewrite He in Hf.
    pose proof (in_lookup _ _ HUr He') as Hl1. unfold ecls in Hl1. rewrite Hl1 in Hf. cbn in Hf. rewrite Hx in Hf. discriminate.
Qed.

Theorem tt_keep_empty both x op (m : trie K V) : reachable m -> ~ one_sided both ->
  (exists r, map_tt rdef rd st both (TUnchanged x) op m map_new = Ret (m, r, Self)) /\
  (exists r o, map_tt rdef rd st both op (TUnchanged x) map_new m = Ret (m, r, o) /\ (map_size m <> 0 -> o = Right)).
Proof.
  intros HR Hn. pose proof (reach_new K V KK) as HN. split.
  - apply tt_keep_left; try assumption; try (intros; contradiction); [discriminate|]. intros e _ _. exists x. reflexivity.
  - destruct (tt_keep_right both op (TUnchanged x) map_new m HN HR Hn) as [r Hr]; try (intros; contradiction).
    + discriminate.
    + intros e _ _. exists x. reflexivity.
    + exists r. destruct Hr as [Hr|[Hr Hm]]; [exists Right; auto|]. exists Self.
      assert (He : map_visit m = []).
      { destruct (map_visit m) as [|e l] eqn:He; [reflexivity|]. destruct (Hm e (or_introl eq_refl)) as (e1 & [] & _). }
      rewrite Hr, (mwf_size m (reachable_mwf _ HR)), He, (empty_is_new m (reachable_mwf _ HR) He). split; [reflexivity|].
      intros H. contradiction H. reflexivity.
Qed.

End Maps.
