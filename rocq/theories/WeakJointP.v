(** The joint traversals keep [ww], whatever the operations return. *)
From Coq Require Import NArith Arith List Bool Lia ZifyBool ZifyN ZifyNat Permutation.
From Verif Require Import Base Words WordsP Flag FlagP Bia BiaP Node Spec SpecP Inv NodeP InsertP TrieP Api ApiP
  Trans Transform Weak LoopP SpecT TransformP Joint JointLeafP JointNodeP JointT StratP HangP KeepP WeakP WeakTransP.
Import ListNotations.
Open Scope N_scope.

(** * The traversals *)
Section Fits.
Context {E : Env} {K V L W S X R T : Type} {KK : Key K} {KL : Key L} {KS : Key S}.
Context (rdef : R) (rd : R -> R -> R).
(** Of the entries on the left, on the right and of the result. *)
Context (P : K * V -> Prop) (P' : L * W -> Prop) (Q : S * X -> Prop).
Context (ac : T -> option (mnode K V) -> option (mnode L W) -> outcome (option (mnode S X) * bool * bool)) (jr : T -> R).
Context (add : acc S X R -> N -> option (mnode K V) -> option (mnode L W) -> T -> outcome (acc S X R)).
Context (Hadd : forall a i ol or t, i < max_ones fw -> okv i (a_bits a) (a_values a) ->
  add a i ol or t = let* c := ac t ol or in Ret (after rd (fun _ => Some (fst (fst c), jr t, snd (fst c), snd c)) [i] a)).

(** What a result puts into its slot is well formed. *)
Definition fits (d p : N) (ol : option (mnode K V)) (or : option (mnode L W)) (t : T) : Prop :=
  forall c x, ac t ol or = Ret c -> fst (fst c) = Some x -> ww Q d p x.

Context (done : acc S X R -> outcome T).
Context (Hdone : forall d p n right (g : N -> cont S X R) r, off d < hbits -> p < 2 ^ off d -> ww P d p n -> ww P' d p right ->
  (forall i x, i < max_ones fw -> cn (g i) = Some x -> ww Q (d + 1) (p + i * 2 ^ off d) x) ->
  holds (fits d p (Some n) (Some right)) (done (total g r))).
Context (lone : mnode K V -> outcome T) (rone : mnode L W -> outcome T).
Context (Hlone : forall d p n or, ww P d p n -> holds (fits d p (Some n) or) (lone n)).
Context (Hrone : forall d p n, ww P' d p n -> holds (fits d p None (Some n)) (rone n)).

Notation scont := (scont ac jr).

Lemma run_fits d p n right st step (f : N -> outcome (cont S X R)) : off d < hbits -> p < 2 ^ off d ->
  ww P d p n -> ww P' d p right -> steps rd step f ->
  (forall i, i < max_ones fw -> holds (fun c => forall x, cn c = Some x -> ww Q (d + 1) (p + i * 2 ^ off d) x) (f i)) ->
  holds (fits d p (Some n) (Some right)) (let* a := run_loop rdef rd st step in done a).
Proof.
  intros Ho Hp HW HWr Hs Hf. destruct (run_loop_ok rdef rd st step f Hs) as [[Hall Hrun]|Hfail].
  - rewrite Hrun. cbn [bind]. apply Hdone; try assumption. intros i x Hi. destruct (Hall i) as [c Hc]; [apply range_in; lia|].
    rewrite Hc. cbn [got]. apply (Hf i Hi). assumption.
  - intros t. destruct Hfail as [(i & _ & _ & ->)|(i & _ & _ & ->)]; discriminate.
Qed.

Lemma scont_fits d p o ol or : holds (fits d p ol or) o -> holds (fun c => forall x, cn c = Some x -> ww Q d p x) (scont o ol or).
Proof.
  intros H. unfold StratP.scont. eapply holds_bind; [exact H|]. intros t Ht c.
  destruct (ac t ol or) as [a| |] eqn:Ha; cbn [bind]; try discriminate. intros [= <-]. intros x. apply Ht. assumption.
Qed.

Context (leaf : lnext K V -> lnext L W -> N -> outcome T).
Context (Hleaf : forall d p this right, ww P d p (next_mnode this) -> ww P' d p (next_mnode right) ->
  holds (fits d p (Some (next_mnode this)) (Some (next_mnode right))) (leaf this right d)).

Lemma m_leaf_fits n : forall d p right, ww P d p n -> ww P' d p (next_mnode right) ->
  holds (fits d p (Some n) (Some (next_mnode right))) (m_leaf rdef add lone rone done leaf right n d).
Proof.
  intros d p right HW. induction HW as [d p s HP Hs|d p l h HL Hl|d p bits values x Ho Hp Hok Hne Hx Hch IH]; intros HWr.
  { cbn [m_leaf]. apply (Hleaf d p (NS s)); [constructor|]; assumption. }
  { cbn [m_leaf]. apply (Hleaf d p (NL l)); [econstructor; eassumption|]; assumption. }
  assert (HWC : ww P d p (MC (BIA bits values x))) by (constructor; assumption).
  cbn [m_leaf]. rewrite flag_at_ok by assumption. cbn [bind unwrap fl_flag].
  destruct (ww_leafw _ _ _ _ HWr) as [HLr Hpr].
  set (j := idx d (hashk (next_key right))) in *.
  assert (HWj : ww P' (d + 1) (p + j * 2 ^ off d) (next_mnode right)).
  { rewrite <- Hpr. unfold j. rewrite <- pre_succ. apply leafw_ww. assumption. }
  assert (Hpow : forall i, (2 ^ j =? 2 ^ i) = (i =? j)) by (intros i; rewrite pow2_eqb; apply N.eqb_sym).
  pose (f := fun (rec : mnode K V -> N -> outcome T) i => match getv bits values i with
        | Some c => scont (if i =? j then rec c (d + 1) else lone c) (Some c) (Some (next_mnode right))
        | None => if i =? j then scont (rone (next_mnode right)) None (Some (next_mnode right)) else Ret None end).
  assert (Hst : forall rec, steps rd (cl_step add lone rone (2 ^ j) (next_mnode right) d (BIA bits (map (fun c => (c, rec c)) values) x)) (f rec)).
  { intros rec a i Hi Ha. unfold cl_step. rewrite bat_bit_index_slot by assumption. cbn [bind].
    rewrite nth_bit_ok by assumption. cbn [unwrap_ok bind]. rewrite Hpow. unfold f.
    destruct (getv bits values i) as [c|]; destruct (N.eqb_spec i j); try (apply (scont_step rd ac jr add Hadd); assumption).
    cbn [bind]. rewrite after_nil_cont. reflexivity. }
  change (loop (cl_step add lone rone (2 ^ j) (next_mnode right) d (BIA bits (map (fun c => (c, m_leaf rdef add lone rone done leaf right c)) values) x)) (range 0 (max_ones fw)) (acc0 rdef))
    with (run_loop rdef rd Sequential (cl_step add lone rone (2 ^ j) (next_mnode right) d (BIA bits (map (fun c => (c, m_leaf rdef add lone rone done leaf right c)) values) x))).
  apply (run_fits d p _ _ _ _ _ Ho Hp HWC HWr (Hst _)). intros i Hi. unfold f.
  destruct (getv bits values i) as [c|] eqn:Hc; destruct (N.eqb_spec i j) as [Hij|Hij].
  - apply scont_fits. apply (IH i c Hc). rewrite Hij. assumption.
  - apply scont_fits. apply Hlone. apply (Hch i c Hc).
  - apply scont_fits. apply Hrone. rewrite Hij. assumption.
  - apply holds_ret. discriminate.
Qed.

Context (tree_leaf : lnext L W -> mnode K V -> N -> outcome T) (leaf_tree : lnext K V -> mnode L W -> N -> outcome T).
Context (short : option T) (st : strategy).
Context (Htl : forall d p n right, ww P d p n -> ww P' d p (next_mnode right) ->
  holds (fits d p (Some n) (Some (next_mnode right))) (tree_leaf right n d)).
Context (Hlt : forall d p n right, ww P d p (next_mnode n) -> ww P' d p right ->
  holds (fits d p (Some (next_mnode n)) (Some right)) (leaf_tree n right d)).
Context (Hshort : forall d p n right t, ww P d p n -> ww P' d p right -> short = Some t -> fits d p (Some n) (Some right) t).

Lemma m_joint_fits n : forall d p right, ww P d p n -> ww P' d p right ->
  holds (fits d p (Some n) (Some right)) (m_joint rdef rd add lone rone done leaf tree_leaf leaf_tree short st n right d).
Proof.
  intros d p right HW. revert right.
  induction HW as [d p s HP Hs|d p l h HL Hl|d p bits values x Ho Hp Hok Hne Hx Hch IH]; intros right HWr.
  - assert (HWs : ww P d p (MS s)) by (constructor; assumption).
    destruct right as [c|r|r]; cbn [m_joint].
    + apply (Hlt d p (NS s)); assumption.
    + apply (Hleaf d p (NS s) (NL r)); assumption.
    + apply (Hleaf d p (NS s) (NS r)); assumption.
  - assert (HWs : ww P d p (ML l)) by (econstructor; eassumption).
    destruct right as [c|r|r]; cbn [m_joint].
    + apply (Hlt d p (NL l)); assumption.
    + apply (Hleaf d p (NL l) (NL r)); assumption.
    + apply (Hleaf d p (NL l) (NS r)); assumption.
  - assert (HWC : ww P d p (MC (BIA bits values x))) by (constructor; assumption).
    destruct right as [[rbits rvalues rx]|r|r]; cbn [m_joint].
    2:{ apply (Htl d p _ (NL r)); assumption. }
    2:{ apply (Htl d p _ (NS r)); assumption. }
    destruct short as [t|]; [apply holds_ret; apply Hshort; try assumption; reflexivity|].
    set (M := m_joint rdef rd add lone rone done leaf tree_leaf leaf_tree None st) in *.
    assert (Hokr : okv (max_ones fw) rbits rvalues) by (inversion HWr; assumption).
    assert (Hchr : forall i c, getv rbits rvalues i = Some c -> ww P' (d + 1) (p + i * 2 ^ off d) c) by (inversion HWr; assumption).
    pose (f := fun (rec : mnode K V -> mnode L W -> N -> outcome T) i => match getv bits values i, getv rbits rvalues i with
        | Some c, Some r => scont (rec c r (d + 1)) (Some c) (Some r)
        | Some c, None => scont (lone c) (Some c) None
        | None, Some r => scont (rone r) None (Some r)
        | None, None => Ret None end).
    assert (Hst : forall rec, steps rd (cc_step add lone rone (BIA bits (map (fun c => (c, fun r => rec c r (d + 1))) values) x) (BIA rbits rvalues rx)) (f rec)).
    { intros rec a i Hi Ha. unfold cc_step. rewrite bat_bit_index_slot by assumption. cbn [bind].
      rewrite (bat_bit_index_get fw (BIA rbits rvalues rx)) by assumption. cbn [bind]. unfold get. cbn [bbits bvalues]. unfold f.
      destruct (getv bits values i) as [c|]; destruct (getv rbits rvalues i) as [r|]; try (apply (scont_step rd ac jr add Hadd); assumption).
      cbn [bind]. rewrite after_nil_cont. reflexivity. }
    apply (run_fits d p _ _ _ _ _ Ho Hp HWC HWr (Hst _)). intros i Hi. unfold f.
    destruct (getv bits values i) as [c|] eqn:Hc; destruct (getv rbits rvalues i) as [r|] eqn:Hr.
    + apply scont_fits. apply (IH i c Hc). auto.
    + apply scont_fits. apply Hlone. auto.
    + apply scont_fits. apply Hrone. auto.
    + apply holds_ret. discriminate.
Qed.

End Fits.

(** * Pieces of collision lists *)
Section Take.
Context {E : Env} {K L W : Type} {KK : Key K} {KL : Key L}.

Lemma take_key_sub (k : K) (rights : list (L * W)) e rest : take_key k rights = Some (e, rest) ->
  In e rights /\ keqb k (fst e) = true /\ forall x, In x rest -> In x rights.
Proof.
  unfold take_key. destruct (position _ rights) as [i|] eqn:Hp; [|discriminate]. unfold swap_remove.
  destruct (nth_error rights i) as [a|] eqn:Hn; [|discriminate]. intros [= <- <-].
  split; [eapply nth_error_In; eassumption|]. split.
  - revert i Hp Hn. clear. induction rights as [|b l IH]; intros i Hp Hn; [destruct i; discriminate|].
    cbn [position] in Hp. destruct (keqb k (fst b)) eqn:Hb.
    + injection Hp as <-. cbn in Hn. injection Hn as <-. assumption.
    + destruct (position _ l) as [j|]; [|discriminate]. injection Hp as <-. apply (IH j); [reflexivity|assumption].
  - intros x Hx.
    assert (HR : forall l : list (L * W), In x (removelast l) -> In x l).
    { induction l as [|b l IH]; [auto|]. destruct l as [|b' l]; [intros []|]. intros [->|H]; [left; reflexivity|right; auto]. }
    apply HR in Hx. apply in_app_iff in Hx. destruct Hx as [Hx|[<-|Hx]].
    + rewrite <- (firstn_skipn i rights). apply in_or_app. auto.
    + clear - Hn. assert (H : forall l : list (L * W), l <> [] -> In (last l a) l).
      { induction l as [|b l IH]; [congruence|]. intros _. destruct l as [|b' l]; [left; reflexivity|].
        right. apply IH. discriminate. }
      apply H. intros ->. destruct i; discriminate.
    + rewrite <- (firstn_skipn (Datatypes.S i) rights). apply in_or_app. auto.
Qed.

End Take.

Section Pieces.
Context {E : Env} {K V R : Type} {KK : Key K}.
Context (Q : K * V -> Prop).

(** A result that is not the old node is a leaf or list of keys of hash [h]. *)
Definition nw (h : N) (t : nres K V R) : Prop := forall x, nnode t = Some x -> leafw Q h x.
Definition tw (h : N) (t : tres K V R) : Prop := match t with TU _ => True | TN n => nw h n end.
Definition jw (h : N) (t : jres K V R) : Prop := match t with JN n => nw h n | _ => True end.

Lemma nw_L h l r : leafw Q h (ML l) -> nw h (NRL l r).
Proof. intros H x [= <-]. assumption. Qed.
Lemma nw_S h s r : leafw Q h (MS s) -> nw h (NRS s r).
Proof. intros H x [= <-]. assumption. Qed.
Lemma nw_Z h r : nw h (NRZ r).
Proof. intros x [=]. Qed.
Lemma nw_with h n r : nw h n -> nw h (n_with n r).
Proof. intros H x Hx. apply H. destruct n; exact Hx. Qed.
Lemma tw_with h t r : tw h t -> tw h (t_with t r).
Proof. destruct t; cbn; [auto|]. apply nw_with. Qed.

Lemma nw_cons h k v n r : nw h n -> Q (k, v) -> hashk k = h -> nw h (n_cons k v n r).
Proof.
  intros H HQ Hh. destruct n as [c z|l z|s z|z]; cbn [n_cons].
  - apply nw_Z.
  - apply nw_L. apply leafw_new; try assumption. apply (H _ eq_refl).
  - apply nw_L. apply leafw_new; try assumption. apply (H _ eq_refl).
  - apply nw_S. split; assumption.
Qed.

Lemma tw_cons h that k v t r : leafw Q h (next_mnode that) -> tw h t -> Q (k, v) -> hashk k = h -> tw h (t_cons that k v t r).
Proof.
  intros Hl H HQ Hh. destruct t; cbn [t_cons tw].
  - apply nw_L. apply leafw_new; assumption.
  - apply nw_cons; assumption.
Qed.

Lemma nw_next h (n : lnext K V) r : leafw Q h (next_mnode n) -> nw h (next_nres n r).
Proof. destruct n; [apply nw_L|apply nw_S]. Qed.

(** The parts of a list. *)
Lemma leafw_next h (l : lnode K V) : leafw Q h (ML l) -> leafw Q h (next_mnode (l_next l)) /\ Q (l_key l, l_value l) /\ hashk (l_key l) = h.
Proof.
  intros [Hl Hh]. destruct l as [k v n z|k v s z]; cbn [l_next next_mnode l_key l_value lok l_visit] in *.
  - split; [split; [apply Hl|]|]; [intros e He; apply Hh; right; assumption|exact (Hh (k, v) (or_introl eq_refl))].
  - split; [exact (Hh _ (or_intror (or_introl eq_refl)))|exact (Hh (k, v) (or_introl eq_refl))].
Qed.

Lemma l_result_w (rd : R -> R -> R) h (this : lnode K V) result next : (forall v, Q (l_key this, v)) -> hashk (l_key this) = h ->
  leafw Q h (next_mnode (l_next this)) -> tw h next -> tw h (l_transform_result rd this result next).
Proof.
  intros HQ Hh Hn Ht. unfold l_transform_result.
  destruct result as [r|v r|r]; destruct next as [z|[c z|l z|s z|z]]; cbn [tw] in *; try exact I; try apply nw_Z;
    try (apply nw_L; apply leafw_new; [|auto|assumption]; first [assumption|apply (Ht _ eq_refl)]);
    try (apply nw_S; split; [auto|assumption]);
    try (apply nw_L; apply (Ht _ eq_refl)); try (apply nw_S; apply (Ht _ eq_refl)).
  destruct (l_next this); [apply nw_L|apply nw_S]; assumption.
Qed.

End Pieces.
