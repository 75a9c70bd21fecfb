(** The parallelism strategy only brackets the reductions of a joint
    operation differently; nothing else depends on it. *)
From Coq Require Import NArith Arith List Bool Lia ZifyBool ZifyN ZifyNat Permutation.
From Verif Require Import Base Words WordsP Flag FlagP Bia BiaP Node Spec SpecP Inv NodeP InsertP TrieP Api ApiP
  Trans Transform LoopP SpecT TransformP Joint SpecJ JoinP JointP JointT Reach ReachP.
Import ListNotations.
Open Scope N_scope.

(** Both calls return related results, or both fail in the same way. *)
Definition osame {A B} (R : A -> B -> Prop) (o : outcome A) (o' : outcome B) : Prop :=
  match o, o' with
  | Ret a, Ret b => R a b
  | Panic, Panic => True
  | Diverge, Diverge => True
  | _, _ => False
  end.

Lemma osame_bind {A B A' B'} (P : A -> B -> Prop) (Q : A' -> B' -> Prop) o o' f f' :
  osame P o o' -> (forall a b, P a b -> osame Q (f a) (f' b)) -> osame Q (bind o f) (bind o' f').
Proof. destruct o, o'; cbn; auto; contradiction. Qed.

Lemma osame_refl {A} (P : A -> A -> Prop) o : (forall a, P a a) -> osame P o o.
Proof. destruct o; cbn; auto. Qed.

(** [f] at every index in order, up to the first failure. *)
Fixpoint each {A} (f : N -> outcome A) (l : list N) : outcome unit :=
  match l with
  | [] => Ret tt
  | i :: l => let* _ := f i in each f l
  end.

Lemma each_app {A} (f : N -> outcome A) l l' : each f (l ++ l') = let* _ := each f l in each f l'.
Proof. induction l; cbn [each app bind]; [reflexivity|]. destruct (f a); cbn [bind]; auto. Qed.

Section Loops.
Context {E : Env} {S X R : Type}.
Context (rdef : R) (rd : R -> R -> R).

Lemma loop_each step (f : N -> outcome (cont S X R)) (lo hi : N) a : steps rd step f -> lo <= hi -> hi <= max_ones fw ->
  okv lo (a_bits a) (a_values a) ->
  loop step (range lo hi) a = let* _ := each f (range lo hi) in Ret (after rd (fun i => got (f i)) (range lo hi) a).
Proof.
  intros Hs Hle Hhi. remember (N.to_nat (hi - lo)) as n eqn:Hn. revert lo a Hle Hn.
  induction n as [|n IH]; intros lo a Hle Hn Hok.
  - replace hi with lo by lia. rewrite range_nil. cbn [loop each bind]. rewrite after_nil. reflexivity.
  - rewrite range_cons by lia. cbn [loop each]. rewrite Hs by (try assumption; lia).
    destruct (f lo) as [c| |] eqn:Hf; cbn [bind]; try reflexivity.
    assert (Ha : after rd (fun _ => c) [lo] a = after rd (fun i => got (f i)) [lo] a).
    { unfold after. cbn. rewrite Hf. reflexivity. }
    rewrite Ha, (IH (N.succ lo)); [|lia|lia|apply after_ok; assumption].
    destruct (each f (range (N.succ lo) hi)); cbn [bind]; try reflexivity. f_equal. symmetry. apply (after_cons rdef).
Qed.

Lemma run_each st step (f : N -> outcome (cont S X R)) : steps rd step f ->
  run_loop rdef rd st step = let* _ := each f (range 0 (max_ones fw)) in Ret (total (fun i => got (f i)) (sred rdef rd st (fun i => got (f i)))).
Proof.
  intros Hs. destruct (run_loop_ok rdef rd st step f Hs) as [[H1 H2]|H].
  - rewrite H2. assert (HE : forall l, (forall i, In i l -> exists c, f i = Ret c) -> each f l = Ret tt).
    { induction l as [|i l IH]; intros Hl; [reflexivity|]. cbn [each]. destruct (Hl i (or_introl eq_refl)) as [c ->].
      apply IH. intros; apply Hl; right; assumption. }
    rewrite HE by exact H1. reflexivity.
  - assert (HF : exists o : outcome unit, each f (range 0 (max_ones fw)) = o /\ match o with Ret _ => False | _ => True end).
    { destruct (each f (range 0 (max_ones fw))) eqn:He; [exfalso|exists Panic; auto|exists Diverge; auto].
      assert (HE : forall l, each f l = Ret tt -> forall i, In i l -> exists c, f i = Ret c).
      { induction l as [|i l IH]; intros Hl j; [intros []|]. cbn [each] in Hl. destruct (f i) as [c| |] eqn:Hi; try discriminate.
        intros [<-|Hj]; [eauto|]. apply IH; assumption. }
      destruct a. destruct H as [(i & Hi & Hf & _)|(i & Hi & Hf & _)]; destruct (HE _ He i Hi) as [c Hc]; congruence. }
    destruct HF as (o & Ho & Hno). rewrite Ho.
    destruct st; unfold run_loop in *.
    + rewrite (loop_each step f 0 (max_ones fw)); [|assumption|lia|lia|apply okv_nil]. rewrite Ho.
      destruct o; [contradiction|reflexivity|reflexivity].
    + unfold halves. fold half. pose proof half_le as Hh. rewrite range_half, each_app in Ho.
      rewrite (loop_each step f 0 half); [|assumption|lia|lia|apply okv_nil].
      destruct (each f (range 0 half)) as [u| |]; cbn [bind] in *; try (subst o; reflexivity).
      rewrite (loop_each step f half (max_ones fw)); [|assumption|lia|lia|apply okv_nil]. rewrite Ho.
      destruct o; [contradiction|reflexivity|reflexivity].
Qed.

(** Slots that contribute the same up to the reduction. *)
Definition csame (c c' : cont S X R) : Prop :=
  cn c = cn c' /\ cl c = cl c' /\ cu c = cu c' /\ (monoid rdef rd -> cr c = cr c').

Lemma each_same (f f' : N -> outcome (cont S X R)) l : (forall i, In i l -> osame csame (f i) (f' i)) -> each f l = each f' l.
Proof.
  induction l as [|i l IH]; intros H; [reflexivity|]. cbn [each]. pose proof (H i (or_introl eq_refl)) as Hi.
  destruct (f i), (f' i); cbn in Hi; try contradiction; cbn [bind]; try reflexivity.
  apply IH. intros; apply H; right; assumption.
Qed.

Lemma run_same {T} (P : T -> T -> Prop) st st' step step' (f f' : N -> outcome (cont S X R)) (done : acc S X R -> outcome T) :
  steps rd step f -> steps rd step' f' -> (forall i, i < max_ones fw -> osame csame (f i) (f' i)) ->
  (forall g r r', (monoid rdef rd -> r = r') -> osame P (done (total g r)) (done (total g r'))) ->
  osame P (let* a := run_loop rdef rd st step in done a) (let* a := run_loop rdef rd st' step' in done a).
Proof.
  intros Hs Hs' Hf Hd.
  assert (Hf' : forall i, In i (range 0 (max_ones fw)) -> osame csame (f i) (f' i)).
  { intros i Hi. apply range_in in Hi. apply Hf. lia. }
  rewrite (run_each st step f Hs), (run_each st' step' f' Hs').
  rewrite <- (each_same f f') by exact Hf'.
  destruct (each f (range 0 (max_ones fw))) as [u| |] eqn:He; cbn [bind osame]; try exact I.
  set (g := fun i => got (f i)). set (g' := fun i => got (f' i)).
  assert (Hg : forall i, In i (range 0 (max_ones fw)) -> csame (g i) (g' i)).
  { intros i Hi. specialize (Hf' i Hi). unfold g, g'. destruct (f i), (f' i); cbn in *; try contradiction; [assumption| |];
      repeat split. }
  destruct (g_ext g g') as (H1 & H2 & H3 & H4 & H5).
  { intros i Hi. destruct (Hg i) as (? & ? & ? & _); [apply range_in; lia|]. auto. }
  assert (HT : forall r, total g r = total g' r) by (intros r; unfold total; rewrite H1, H2, H3, H4, H5; reflexivity).
  rewrite HT. apply Hd. intros HM. rewrite !(sred_msum _ _ HM). f_equal.
  apply flat_map_ext_in. intros i Hi. apply (Hg i Hi). assumption.
Qed.

End Loops.

(** * The traversals *)
Section Same.
Context {E : Env} {K V L W S X R T : Type} {KK : Key K} {KL : Key L}.
Context (rdef : R) (rd : R -> R -> R).
(** Results that differ in the reduction only. *)
Context (same : T -> T -> Prop) (Hrefl : forall t, same t t).
(** What a result puts into its slot. *)
Context (ac : T -> option (mnode K V) -> option (mnode L W) -> outcome (option (mnode S X) * bool * bool)) (jr : T -> R).
Context (add : acc S X R -> N -> option (mnode K V) -> option (mnode L W) -> T -> outcome (acc S X R)).
Context (Hadd : forall a i ol or t, i < max_ones fw -> okv i (a_bits a) (a_values a) ->
  add a i ol or t = let* c := ac t ol or in Ret (after rd (fun _ => Some (fst (fst c), jr t, snd (fst c), snd c)) [i] a)).
Context (Hac : forall t t' ol or, same t t' -> ac t ol or = ac t' ol or).
Context (Hjr : forall t t', same t t' -> monoid rdef rd -> jr t = jr t').
Context (done : acc S X R -> outcome T).
Context (Hdone : forall g r r', (monoid rdef rd -> r = r') -> osame same (done (total g r)) (done (total g r'))).
Context (lone lone' : mnode K V -> outcome T) (rone rone' : mnode L W -> outcome T).
Context (Hlone : forall d p n, wf d p n -> osame same (lone n) (lone' n)).
Context (Hrone : forall d p n, wf d p n -> osame same (rone n) (rone' n)).

Definition scont (o : outcome T) (ol : option (mnode K V)) (or : option (mnode L W)) : outcome (cont S X R) :=
  let* t := o in let* c := ac t ol or in Ret (Some (fst (fst c), jr t, snd (fst c), snd c)).

Lemma scont_same o o' ol or : osame same o o' -> osame (csame rdef rd) (scont o ol or) (scont o' ol or).
Proof.
  intros H. unfold scont. eapply osame_bind; [exact H|]. intros t t' Ht. rewrite (Hac _ _ _ _ Ht).
  destruct (ac t' ol or) as [[[on ul] ur]| |]; cbn; auto. repeat split. intros HM. cbn. rewrite (Hjr _ _ Ht HM). reflexivity.
Qed.

Lemma scont_step o ol or a i : i < max_ones fw -> okv i (a_bits a) (a_values a) ->
  (let* t := o in add a i ol or t) = let* c := scont o ol or in Ret (after rd (fun _ => c) [i] a).
Proof.
  intros Hi Ha. unfold scont. destruct o as [t| |]; cbn [bind]; try reflexivity. rewrite Hadd by assumption.
  destruct (ac t ol or); reflexivity.
Qed.

Context (leaf : lnext K V -> lnext L W -> N -> outcome T).

Lemma m_leaf_same n : forall d p right, wf d p n -> wf d p (next_mnode right) ->
  osame same (m_leaf rdef add lone rone done leaf right n d) (m_leaf rdef add lone' rone' done leaf right n d).
Proof.
  intros d p right HW. induction HW as [d p s Hs|d p l h HL Hl|d p bits values x Ho Hp Hok Hne Hx Hch IH]; intros HWr.
  1-2: cbn [m_leaf]; apply osame_refl; exact Hrefl.
  cbn [m_leaf]. rewrite flag_at_ok by assumption. cbn [bind unwrap fl_flag].
  pose proof (spread_leaf _ _ _ HWr) as Hsr.
  set (j := idx d (hashk (next_key right))) in *.
  assert (Hpow : forall i, (2 ^ j =? 2 ^ i) = (i =? j)) by (intros i; rewrite pow2_eqb; apply N.eqb_sym).
  pose (f := fun (rec : mnode K V -> N -> outcome T) lo ro i => match getv bits values i with
        | Some c => scont (if i =? j then rec c (d + 1) else lo c) (Some c) (Some (next_mnode right))
        | None => if i =? j then scont (ro (next_mnode right)) None (Some (next_mnode right)) else Ret None end).
  assert (Hst : forall rec lo ro, steps rd (cl_step add lo ro (2 ^ j) (next_mnode right) d (BIA bits (map (fun c => (c, rec c)) values) x)) (f rec lo ro)).
  { intros rec lo ro a i Hi Ha. unfold cl_step. rewrite bat_bit_index_slot by assumption. cbn [bind].
    rewrite nth_bit_ok by assumption. cbn [unwrap_ok bind]. rewrite Hpow. unfold f.
    destruct (getv bits values i) as [c|]; destruct (N.eqb_spec i j); try (apply scont_step; assumption).
    cbn [bind]. rewrite after_nil_cont. reflexivity. }
  change (loop (cl_step add lone rone (2 ^ j) (next_mnode right) d (BIA bits (map (fun c => (c, m_leaf rdef add lone rone done leaf right c)) values) x)) (range 0 (max_ones fw)) (acc0 rdef))
    with (run_loop rdef rd Sequential (cl_step add lone rone (2 ^ j) (next_mnode right) d (BIA bits (map (fun c => (c, m_leaf rdef add lone rone done leaf right c)) values) x))).
  change (loop (cl_step add lone' rone' (2 ^ j) (next_mnode right) d (BIA bits (map (fun c => (c, m_leaf rdef add lone' rone' done leaf right c)) values) x)) (range 0 (max_ones fw)) (acc0 rdef))
    with (run_loop rdef rd Sequential (cl_step add lone' rone' (2 ^ j) (next_mnode right) d (BIA bits (map (fun c => (c, m_leaf rdef add lone' rone' done leaf right c)) values) x))).
  apply (run_same rdef rd same _ _ _ _ _ _ done (Hst _ _ _) (Hst _ _ _)); [|exact Hdone].
  intros i Hi. unfold f. destruct (getv bits values i) as [c|] eqn:Hc; destruct (N.eqb_spec i j) as [Hij|Hij].
  - apply scont_same. apply (IH i c Hc). apply (proj2 Hsr). rewrite Hij, N.eqb_refl. reflexivity.
  - apply scont_same. eapply Hlone. apply (Hch i c Hc).
  - apply scont_same. eapply Hrone. exact HWr.
  - repeat split.
Qed.

Context (tree_leaf tree_leaf' : lnext L W -> mnode K V -> N -> outcome T) (leaf_tree leaf_tree' : lnext K V -> mnode L W -> N -> outcome T).
Context (short : option T) (st st' : strategy).
Context (Htl : forall d p n right, wf d p n -> wf d p (next_mnode right) -> osame same (tree_leaf right n d) (tree_leaf' right n d)).
Context (Hlt : forall d p n right, wf d p (next_mnode n) -> wf d p right -> osame same (leaf_tree n right d) (leaf_tree' n right d)).

Lemma m_joint_same n : forall d p right, wf d p n -> wf d p right ->
  osame same (m_joint rdef rd add lone rone done leaf tree_leaf leaf_tree short st n right d)
    (m_joint rdef rd add lone' rone' done leaf tree_leaf' leaf_tree' short st' n right d).
Proof.
  intros d p right HW. revert right.
  induction HW as [d p s Hs|d p l h HL Hl|d p bits values x Ho Hp Hok Hne Hx Hch IH]; intros right HWr.
  - assert (HWs : wf d p (MS s)) by (constructor; assumption).
    destruct right as [c|r|r]; cbn [m_joint]; [|apply osame_refl; exact Hrefl..].
    apply (Hlt d p (NS s)); assumption.
  - assert (HWs : wf d p (ML l)) by (econstructor; eassumption).
    destruct right as [c|r|r]; cbn [m_joint]; [|apply osame_refl; exact Hrefl..].
    apply (Hlt d p (NL l)); assumption.
  - assert (HWC : wf d p (MC (BIA bits values x))) by (constructor; assumption).
    destruct right as [[rbits rvalues rx]|r|r]; cbn [m_joint].
    2:{ apply (Htl d p _ (NL r)); assumption. }
    2:{ apply (Htl d p _ (NS r)); assumption. }
    destruct short as [t|]; [cbn; apply Hrefl|].
    set (M := m_joint rdef rd add lone rone done leaf tree_leaf leaf_tree None st) in *.
    set (M' := m_joint rdef rd add lone' rone' done leaf tree_leaf' leaf_tree' None st') in *.
    assert (Hokr : okv (max_ones fw) rbits rvalues) by (inversion HWr; assumption).
    pose proof (spread_C _ _ _ _ _ HWr) as Hsr.
    pose (f := fun (rec : mnode K V -> mnode L W -> N -> outcome T) lo ro i => match getv bits values i, getv rbits rvalues i with
        | Some c, Some r => scont (rec c r (d + 1)) (Some c) (Some r)
        | Some c, None => scont (lo c) (Some c) None
        | None, Some r => scont (ro r) None (Some r)
        | None, None => Ret None end).
    assert (Hst : forall rec lo ro, steps rd (cc_step add lo ro (BIA bits (map (fun c => (c, fun r => rec c r (d + 1))) values) x) (BIA rbits rvalues rx)) (f rec lo ro)).
    { intros rec lo ro a i Hi Ha. unfold cc_step. rewrite bat_bit_index_slot by assumption. cbn [bind].
      rewrite (bat_bit_index_get fw (BIA rbits rvalues rx)) by assumption. cbn [bind]. unfold get. cbn [bbits bvalues]. unfold f.
      destruct (getv bits values i) as [c|]; destruct (getv rbits rvalues i) as [r|]; try (apply scont_step; assumption).
      cbn [bind]. rewrite after_nil_cont. reflexivity. }
    apply (run_same rdef rd same _ _ _ _ _ _ done (Hst _ _ _) (Hst _ _ _)); [|exact Hdone].
    intros i Hi. unfold f. destruct (getv bits values i) as [c|] eqn:Hc; destruct (getv rbits rvalues i) as [r|] eqn:Hr.
    + apply scont_same. apply (IH i c Hc). apply (proj2 Hsr). assumption.
    + apply scont_same. eapply Hlone. apply (Hch i c Hc).
    + apply scont_same. eapply Hrone. apply (proj2 Hsr i r Hr).
    + repeat split.
Qed.

End Same.

(** * The families *)
Section TT.
Context {E : Env} {K V R : Type} {KK : Key K}.
Context (rdef : R) (rd : R -> R -> R).

Definition n_same (n n' : nres K V R) : Prop := nnode n = nnode n' /\ (monoid rdef rd -> nred n = nred n').
Definition j_same (j j' : jres K V R) : Prop :=
  match j, j' with
  | JLR r, JLR r' | JL r, JL r' | JR r, JR r' => monoid rdef rd -> r = r'
  | JN n, JN n' => n_same n n'
  | _, _ => False
  end.

Lemma n_same_refl n : n_same n n.
Proof. split; reflexivity. Qed.
Lemma j_same_refl j : j_same j j.
Proof. destruct j; cbn; try reflexivity. apply n_same_refl. Qed.

Lemma finish_same (g : N -> cont K V R) r r' : (monoid rdef rd -> r = r') ->
  osame n_same (finish (total g r)) (finish (total g r')).
Proof.
  intros H. unfold finish, total. cbn [a_values a_bits a_size a_red].
  destruct (gvals g _) as [|[c|l0|s0] [|n1 vs]]; try (split; [reflexivity|exact H]);
    destruct (new_bia _ _ _); cbn; try exact I; (split; [reflexivity|exact H]).
Qed.

Definition tt_ac (t : jres K V R) (ol or : option (mnode K V)) : outcome (option (mnode K V) * bool * bool) :=
  match t with
  | JLR _ => let* l := unwrap ol in Ret (Some l, true, true)
  | JL _ => let* l := unwrap ol in Ret (Some l, true, false)
  | JR _ => let* l := unwrap or in Ret (Some l, false, true)
  | JN n => Ret (nnode n, false, false)
  end.

Lemma tt_add_ac a i ol or t : i < max_ones fw -> okv i (a_bits a) (a_values a) ->
  tt_add rd a i ol or t = let* c := tt_ac t ol or in Ret (after rd (fun _ => Some (fst (fst c), jred t, snd (fst c), snd c)) [i] a).
Proof.
  intros Hi Ha. destruct t as [r|r|r|n]; cbn [tt_add tt_ac].
  - destruct ol as [l|]; cbn [unwrap bind]; [|reflexivity]. apply push_ok; assumption.
  - destruct ol as [l|]; cbn [unwrap bind]; [|reflexivity]. rewrite push_ok by assumption. cbn [bind].
    rewrite set_ur_after. reflexivity.
  - destruct or as [l|]; cbn [unwrap bind]; [|reflexivity]. rewrite push_ok by assumption. cbn [bind].
    rewrite set_ul_after. reflexivity.
  - rewrite push_new_ok by assumption. cbn [bind]. rewrite set_ul_after, set_ur_after. reflexivity.
Qed.

Lemma tt_ac_same t t' ol or : j_same t t' -> tt_ac t ol or = tt_ac t' ol or.
Proof. destruct t, t'; cbn; try contradiction; try reflexivity. intros [-> _]. reflexivity. Qed.
Lemma jred_same t t' : j_same t t' -> monoid rdef rd -> jred t = jred t'.
Proof. destruct t, t'; cbn; try contradiction; try (intros H; exact H). intros [_ H]. exact H. Qed.

Lemma tt_done_same (g : N -> cont K V R) r r' : (monoid rdef rd -> r = r') ->
  osame j_same (tt_done (total g r)) (tt_done (total g r')).
Proof.
  intros H. pose proof (finish_same g r r' H) as HF. unfold tt_done.
  change (a_ul (total g r)) with (a_ul (total g r')). change (a_ur (total g r)) with (a_ur (total g r')).
  destruct (a_ul (total g r')), (a_ur (total g r')); cbn [osame j_same total a_red]; try exact H.
  eapply osame_bind; [exact HF|]. intros n n' Hn. exact Hn.
Qed.

Lemma t_same_left t t' : t_same rdef rd t t' -> j_same (t_left t) (t_left t').
Proof.
  intros (H1 & H2 & H3). destruct t, t'; cbn in *; try discriminate; [exact H3|]. split; [exact (H2 (MC bdefault))|exact H3].
Qed.
Lemma t_same_right t t' : t_same rdef rd t t' -> j_same (t_right t) (t_right t').
Proof.
  intros (H1 & H2 & H3). destruct t, t'; cbn in *; try discriminate; [exact H3|]. split; [exact (H2 (MC bdefault))|exact H3].
Qed.

Lemma transform_same op st st' d p (n : mnode K V) : wf d p n ->
  osame (t_same rdef rd) (m_transform rdef rd st op n) (m_transform rdef rd st' op n).
Proof. intros HW. destruct (m_transform_strategy rdef rd op st st' d p n HW) as (t & t' & -> & -> & H). exact H. Qed.

Lemma tt_lone_same op st st' d p (n : mnode K V) : wf d p n ->
  osame j_same (tt_lone rdef rd st op n) (tt_lone rdef rd st' op n).
Proof.
  intros HW. unfold tt_lone. eapply osame_bind; [eapply transform_same; eassumption|].
  intros t t' H. exact (t_same_left _ _ H).
Qed.
Lemma tt_rone_same op st st' d p (n : mnode K V) : wf d p n ->
  osame j_same (tt_rone rdef rd st op n) (tt_rone rdef rd st' op n).
Proof.
  intros HW. unfold tt_rone. eapply osame_bind; [eapply transform_same; eassumption|].
  intros t t' H. exact (t_same_right _ _ H).
Qed.

Lemma tt_tree_leaf_same st st' both lop rop d p n right : wf d p n -> wf d p (next_mnode right) ->
  osame j_same (tt_tree_leaf rdef rd st both lop rop right n d) (tt_tree_leaf rdef rd st' both lop rop right n d).
Proof.
  intros H1 H2. unfold tt_tree_leaf.
  apply (m_leaf_same rdef rd j_same j_same_refl tt_ac jred (tt_add rd) tt_add_ac tt_ac_same jred_same tt_done tt_done_same
    _ _ _ _ (tt_lone_same lop st st') (tt_rone_same rop st st') _ n d p right H1 H2).
Qed.

Lemma jflip_same t t' : j_same t t' -> j_same (jres_flip t) (jres_flip t').
Proof. destruct t, t'; cbn; auto. Qed.

Lemma m_tt_same st st' both lop rop d p n right : wf d p n -> wf d p right ->
  osame j_same (m_tt rdef rd st both lop rop n right d) (m_tt rdef rd st' both lop rop n right d).
Proof.
  intros H1 H2. unfold m_tt.
  apply (m_joint_same rdef rd j_same j_same_refl tt_ac jred (tt_add rd) tt_add_ac tt_ac_same jred_same tt_done tt_done_same
    _ _ _ _ (tt_lone_same lop st st') (tt_rone_same rop st st') _ _ _ _ _ (tt_short both lop rop) st st'
    (fun d p n right => tt_tree_leaf_same st st' both lop rop d p n right)) with (p := p); [|assumption..].
  intros d0 p0 n0 right0 G1 G2. unfold tt_leaf_tree. eapply osame_bind; [apply (tt_tree_leaf_same st st' _ _ _ d0 p0); assumption|].
  intros t t' H. exact (jflip_same _ _ H).
Qed.

End TT.

Section TM.
Context {E : Env} {K V L W R : Type} {KK : Key K} {KL : Key L}.
Context (rdef : R) (rd : R -> R -> R).

Definition tm_ac (keep : bool) (t : tres K V R) (ol : option (mnode K V)) (or : option (mnode L W))
  : outcome (option (mnode K V) * bool * bool) :=
  match t with
  | TU _ => let* l := unwrap ol in Ret (Some l, keep, true)
  | TN n => Ret (nnode n, false, true)
  end.

Lemma tm_add_ac keep a i ol or t : i < max_ones fw -> okv i (a_bits a) (a_values a) ->
  tm_add rd keep a i ol or t = let* c := tm_ac keep t ol or in Ret (after rd (fun _ => Some (fst (fst c), tred t, snd (fst c), snd c)) [i] a).
Proof.
  intros Hi Ha. destruct t as [r|n]; cbn [tm_add tm_ac].
  - destruct ol as [l|]; cbn [unwrap bind]; [|reflexivity]. rewrite push_ok by assumption. cbn [bind].
    destruct keep; [|rewrite set_ul_after]; reflexivity.
  - rewrite push_new_ok by assumption. cbn [bind]. rewrite set_ul_after. reflexivity.
Qed.

Definition mt_ac (keep : bool) (t : tres L W R) (ol : option (mnode K V)) (or : option (mnode L W))
  : outcome (option (mnode L W) * bool * bool) :=
  match t with
  | TU _ => let* l := unwrap or in Ret (Some l, true, keep)
  | TN n => Ret (nnode n, true, false)
  end.

Lemma mt_add_ac keep a i ol or t : i < max_ones fw -> okv i (a_bits a) (a_values a) ->
  mt_add rd keep a i ol or t = let* c := mt_ac keep t ol or in Ret (after rd (fun _ => Some (fst (fst c), tred t, snd (fst c), snd c)) [i] a).
Proof.
  intros Hi Ha. destruct t as [r|n]; cbn [mt_add mt_ac].
  - destruct or as [l|]; cbn [unwrap bind]; [|reflexivity]. rewrite push_ok by assumption. cbn [bind].
    destruct keep; [|rewrite set_ur_after]; reflexivity.
  - rewrite push_new_ok by assumption. cbn [bind]. rewrite set_ur_after. reflexivity.
Qed.

Lemma t_same_tn {A B} (n n' : nres A B R) : n_same rdef rd n n' -> t_same rdef rd (TN n) (TN n').
Proof. intros [H1 H2]. split; [reflexivity|]. split; [intros n0; exact H1|exact H2]. Qed.
Lemma t_same_tu {A B} r r' : (monoid rdef rd -> r = r') -> t_same rdef rd (TU r : tres A B R) (TU r').
Proof. intros H. split; [reflexivity|]. split; [reflexivity|exact H]. Qed.

Lemma tm_ac_same keep t t' ol or : t_same rdef rd t t' -> tm_ac keep t ol or = tm_ac keep t' ol or.
Proof.
  intros (H1 & H2 & _). destruct t, t'; cbn in *; try discriminate; [reflexivity|]. rewrite (H2 (MC bdefault)). reflexivity.
Qed.
Lemma mt_ac_same keep t t' ol or : t_same rdef rd t t' -> mt_ac keep t ol or = mt_ac keep t' ol or.
Proof.
  intros (H1 & H2 & _). destruct t, t'; cbn in *; try discriminate; [reflexivity|]. rewrite (H2 (MC bdefault)). reflexivity.
Qed.
Lemma tred_same {A B} (t t' : tres A B R) : t_same rdef rd t t' -> monoid rdef rd -> tred t = tred t'.
Proof. intros (_ & _ & H). exact H. Qed.

Lemma tm_done_same (g : N -> cont K V R) r r' : (monoid rdef rd -> r = r') ->
  osame (t_same rdef rd) (tm_done (total g r)) (tm_done (total g r')).
Proof.
  intros H. pose proof (finish_same rdef rd g r r' H) as HF. unfold tm_done.
  change (a_ul (total g r)) with (a_ul (total g r')).
  destruct (a_ul (total g r')); cbn [osame total a_red]; [apply t_same_tu; exact H|].
  eapply osame_bind; [exact HF|]. intros n n' Hn. exact (t_same_tn _ _ Hn).
Qed.
Lemma mt_done_same (g : N -> cont L W R) r r' : (monoid rdef rd -> r = r') ->
  osame (t_same rdef rd) (mt_done (total g r)) (mt_done (total g r')).
Proof.
  intros H. pose proof (finish_same rdef rd g r r' H) as HF. unfold mt_done.
  change (a_ur (total g r)) with (a_ur (total g r')).
  destruct (a_ur (total g r')); cbn [osame total a_red]; [apply t_same_tu; exact H|].
  eapply osame_bind; [exact HF|]. intros n n' Hn. exact (t_same_tn _ _ Hn).
Qed.

Lemma tm_tree_leaf_same st st' both lop rop d p (n : mnode K V) (right : lnext L W) : wf d p n -> wf d p (next_mnode right) ->
  osame (t_same rdef rd) (tm_tree_leaf rdef rd st both lop rop right n d) (tm_tree_leaf rdef rd st' both lop rop right n d).
Proof.
  intros H1 H2. unfold tm_tree_leaf.
  eapply (m_leaf_same rdef rd _ (t_same_refl rdef rd) (tm_ac _) tred _ (tm_add_ac _) (tm_ac_same _) tred_same tm_done tm_done_same
    _ _ _ _ (fun d p n => transform_same rdef rd lop st st' d p n));
    [|eassumption..].
  intros d0 p0 n0 _. apply osame_refl. apply t_same_refl.
Qed.
Lemma mt_tree_leaf_same st st' both lop rop d p (n : mnode K V) (right : lnext L W) : wf d p n -> wf d p (next_mnode right) ->
  osame (t_same rdef rd) (mt_tree_leaf rdef rd st both lop rop right n d) (mt_tree_leaf rdef rd st' both lop rop right n d).
Proof.
  intros H1 H2. unfold mt_tree_leaf.
  eapply (m_leaf_same rdef rd _ (t_same_refl rdef rd) (mt_ac _) tred _ (mt_add_ac _) (mt_ac_same _) tred_same mt_done mt_done_same
    _ _ _ _);
    [|exact (fun d p n => transform_same rdef rd rop st st' d p n)|eassumption..].
  intros d0 p0 n0 _. apply osame_refl. apply t_same_refl.
Qed.
End TM.

Section Joined.
Context {E : Env} {K V L W R : Type} {KK : Key K} {KL : Key L}.
Context (rdef : R) (rd : R -> R -> R).

Lemma m_tm_same st st' both lop rop d p (n : mnode K V) (right : mnode L W) : wf d p n -> wf d p right ->
  osame (t_same rdef rd) (m_tm rdef rd st both lop rop n right d) (m_tm rdef rd st' both lop rop n right d).
Proof.
  intros H1 H2. unfold m_tm.
  eapply (m_joint_same rdef rd _ (t_same_refl rdef rd) (tm_ac true) tred _ (tm_add_ac rd true) (tm_ac_same rdef rd true) (tred_same rdef rd) tm_done (tm_done_same rdef rd)
    _ _ _ _ (fun d p n => transform_same rdef rd lop st st' d p n));
    [| | |eassumption..].
  - intros d0 p0 n0 _. apply osame_refl. apply t_same_refl.
  - intros d0 p0 n0 right0. apply tm_tree_leaf_same.
  - intros d0 p0 n0 right0 G1 G2. apply mt_tree_leaf_same with (p := p0); assumption.
Qed.

Lemma m_mt_same st st' both lop rop d p (n : mnode K V) (right : mnode L W) : wf d p n -> wf d p right ->
  osame (t_same rdef rd) (m_mt rdef rd st both lop rop n right d) (m_mt rdef rd st' both lop rop n right d).
Proof.
  intros H1 H2. unfold m_mt.
  eapply (m_joint_same rdef rd _ (t_same_refl rdef rd) (mt_ac true) tred _ (mt_add_ac rd true) (mt_ac_same rdef rd true) (tred_same rdef rd) mt_done (mt_done_same rdef rd)
    _ _ _ _);
    [|exact (fun d p n => transform_same rdef rd rop st st' d p n)| | |eassumption..].
  - intros d0 p0 n0 _. apply osame_refl. apply t_same_refl.
  - intros d0 p0 n0 right0. apply mt_tree_leaf_same.
  - intros d0 p0 n0 right0 G1 G2. apply tm_tree_leaf_same with (p := p0); assumption.
Qed.
End Joined.

(** * The public operations *)

(** Two calls with the same map and origin, and the same reduction if the
    reduction is a monoid; or two calls that fail the same way. *)
Definition agree {M O R} (rdef : R) (rd : R -> R -> R) : outcome (M * R * O) -> outcome (M * R * O) -> Prop :=
  osame (fun x y => fst (fst x) = fst (fst y) /\ snd x = snd y /\ (monoid rdef rd -> snd (fst x) = snd (fst y))).

Section Maps.
Context {E : Env} {R : Type}.
Context (rdef : R) (rd : R -> R -> R).

Lemma nres_trie_same {K V} (n n' : nres K V R) : n_same rdef rd n n' ->
  fst (nres_trie n) = fst (nres_trie n') /\ (monoid rdef rd -> snd (nres_trie n) = snd (nres_trie n')).
Proof. intros [H1 H2]. destruct n, n'; cbn in *; try discriminate; try (injection H1 as ->); auto. Qed.

Theorem map_tt_strategies {K V} {KK : Key K} st st' both lop rop (m right : trie K V) : reachable m -> reachable right ->
  agree rdef rd (map_tt rdef rd st both lop rop m right) (map_tt rdef rd st' both lop rop m right).
Proof.
  intros H1 H2. unfold map_tt, agree. eapply osame_bind.
  - eapply m_tt_same; apply reachable_mwf; eassumption.
  - intros t t' H. destruct t, t'; cbn in H; try contradiction; cbn; auto.
    destruct (nres_trie_same _ _ H) as [G1 G2]. auto.
Qed.

Theorem map_tm_strategies {K V L W} {KK : Key K} {KL : Key L} st st' both lop rop (m : trie K V) (right : trie L W) : reachable m -> reachable right ->
  agree rdef rd (map_tm rdef rd st both lop rop m right) (map_tm rdef rd st' both lop rop m right).
Proof.
  intros H1 H2. unfold map_tm, agree. eapply osame_bind.
  - eapply m_tm_same; apply reachable_mwf; eassumption.
  - intros t t' (G1 & G2 & G3). destruct t as [r|n], t' as [r'|n']; cbn in G1; try discriminate; cbn; auto.
    destruct (nres_trie_same n n') as [F1 F2]; [split; [apply (G2 (MC bdefault))|exact G3]|]. auto.
Qed.

Theorem map_mt_strategies {K V L W} {KK : Key K} {KL : Key L} st st' both lop rop (m : trie K V) (right : trie L W) : reachable m -> reachable right ->
  agree rdef rd (map_mt rdef rd st both lop rop m right) (map_mt rdef rd st' both lop rop m right).
Proof.
  intros H1 H2. unfold map_mt, agree. eapply osame_bind.
  - eapply m_mt_same; apply reachable_mwf; eassumption.
  - intros t t' (G1 & G2 & G3). destruct t as [r|n], t' as [r'|n']; cbn in G1; try discriminate; cbn; auto.
    destruct (nres_trie_same n n') as [F1 F2]; [split; [apply (G2 (MC bdefault))|exact G3]|]. auto.
Qed.
End Maps.
