(** How often the joint operations compare and hash keys: the traversals. *)
From Coq Require Import NArith Arith List Bool Lia ZifyBool ZifyN ZifyNat.
From Verif Require Import Base Words WordsP Flag Bia BiaP Node Inv Api Trans Transform Joint JointT Profile Eff EffP EffApi Ask AskP AskT AskJ AskTw
  SpecAsk SpecCount JointLeafP AskJTravP AskCountP AskCountLP.
Import ListNotations.
Open Scope N_scope.

(** * Sums and maxima *)
Lemma tot_le c c' l : (forall i, In i l -> c i <= c' i) -> tot c l <= tot c' l.
Proof.
  induction l as [|i l IH]; intros H; [reflexivity|]. cbn [tot fold_right]. fold (tot c l) (tot c' l).
  pose proof (H i (or_introl eq_refl)). pose proof (IH (fun j Hj => H j (or_intror Hj))). lia.
Qed.
Lemma tot_scale c k l : tot (fun i => c i * k) l = tot c l * k.
Proof. induction l as [|i l IH]; [reflexivity|]. cbn [tot fold_right]. fold (tot (fun i => c i * k) l) (tot c l). rewrite IH. lia. Qed.
Lemma tot_zero l : tot (fun _ => 0) l = 0.
Proof. induction l as [|i l IH]; [reflexivity|]. exact IH. Qed.
Lemma tot_len {B} (f : N -> list B) l : tot (fun i => lenN (f i)) l = lenN (flat_map f l).
Proof.
  induction l as [|i l IH]; [reflexivity|]. cbn [tot fold_right flat_map]. fold (tot (fun i => lenN (f i)) l). rewrite IH.
  unfold lenN. rewrite app_length. lia.
Qed.
Lemma tot_one f c l : NoDup l -> tot (fun i => if f =? 2 ^ i then c else 0) l <= c.
Proof.
  intros Hn. assert (H : tot (fun i => if f =? 2 ^ i then c else 0) l <= c /\ ((forall i, In i l -> f <> 2 ^ i) -> tot (fun i => if f =? 2 ^ i then c else 0) l = 0)); [|apply H].
  induction Hn as [|i l Hi Hn [IH1 IH2]]; [split; [apply N.le_0_l|reflexivity]|]. cbn [tot fold_right].
  fold (tot (fun i => if f =? 2 ^ i then c else 0) l). destruct (N.eqb_spec f (2 ^ i)) as [Hf|Hf].
  - split; [|intros H; destruct (H i (or_introl eq_refl) Hf)]. rewrite IH2; [lia|]. intros j Hj He. apply Hi.
    assert (i = j) as -> by (apply (N.pow_inj_r 2); lia). exact Hj.
  - split; [lia|]. intros H. apply IH2. intros j Hj. apply H. right. exact Hj.
Qed.

Section Measures.
Context {K V : Type}.
Implicit Types n c : mnode K V.
Lemma max_in (f : mnode K V -> N) c l : In c l -> f c <= fold_right N.max 0 (map f l).
Proof. induction l as [|b l IH]; intros H; [contradiction|]. cbn [map fold_right]. destruct H as [->|H]; [lia|]. specialize (IH H). lia. Qed.
Lemma longest_child bits values x c : In c values -> longest c <= longest (MC (BIA bits values x)).
Proof. apply (max_in longest). Qed.
Lemma branches_child bits values x c : In c values -> 1 + branches c <= branches (MC (BIA bits values x)).
Proof. intros H. cbn [branches bvalues]. pose proof (max_in branches c values H). lia. Qed.
Lemma longest_len n : longest n <= lenN (m_visit n).
Proof.
  induction n as [bits values x IH|l|s] using mnode_ind'; cbn [longest m_visit bvalues]; [|reflexivity|reflexivity].
  induction IH as [|c l Hc _ IHl]; cbn [map fold_right concat]; [apply N.le_0_l|]. unfold lenN in *. rewrite app_length. lia.
Qed.
Lemma leaf_longest (r : lnext K V) : longest (next_mnode r) = lenN (m_visit (next_mnode r)).
Proof. destruct r; reflexivity. Qed.
Lemma leaf_branches (r : lnext K V) : branches (next_mnode r) = 0.
Proof. destruct r; reflexivity. Qed.
End Measures.

(** * transform and transmute *)
Section One.
Context {E : Env} {Q : Type} {A : Q -> Type} (fe fh : Q -> bool) {R : Type}.
Context (def : prog A R) (red : R -> R -> prog A R) (Hdef : free fe fh def) (Hred : forall a b, free fe fh (red a b)).

Lemma bat_bit_in {B} (b : bia B) i a : bat_bit_index fw b i = Ret (Ok a) -> In a (bvalues b).
Proof.
  unfold bat_bit_index. destruct (nth_bit fw i); [|discriminate]. destruct (bit_index _ _) as [j|]; [|discriminate].
  destruct (nthN (bvalues b) j) eqn:Hn; [|discriminate]. cbn [unwrap bind]. intros [= <-]. unfold nthN in Hn. apply nth_error_In in Hn. exact Hn.
Qed.

Lemma am_transform_free {K V} (ck : K -> prog A K) (cv : V -> prog A V) st op (n : mnode K V) :
  (forall k, free fe fh (ck k)) -> (forall v, free fe fh (cv v)) -> quiet fe fh op -> free fe fh (am_transform def red ck cv st op n).
Proof.
  intros Hck Hcv Hop. induction n as [bits values x IH|l|s] using mnode_ind'; cbn [am_transform].
  - destruct op as [f|r|r]; try (apply asks_ret; exact Logic.I). apply asks_free; [|intros a; apply free_lift].
    eapply asks_weak; [apply (arun_loop_asks fe fh def red Hdef Hred st _ (fun _ => 0) (fun _ => 0))| | |auto]; [|rewrite tot_zero; lia|rewrite tot_zero; lia].
    intros i a _. unfold ac_transform_step. apply asks_pure. intros [[c res]|e] Ho; [|apply asks_ret; exact Logic.I].
    apply bat_bit_in in Ho. cbn [bvalues] in Ho. apply in_map_iff in Ho. destruct Ho as (c' & [= <- <-] & Hc). rewrite Forall_forall in IH.
    apply asks_free; [exact (IH c' Hc)|]. intros [r|m]; [apply apush_free; assumption|].
    apply asks_free; [apply apush_new_free; assumption|]. intros a'. apply asks_ret. exact Logic.I.
  - apply al_transform_free; assumption.
  - apply as_transform_free; assumption.
Qed.
Lemma am_transmute_free {K V S X} (op : etransmute A (K * V) S X R) (n : mnode K V) : mquiet fe fh op -> free fe fh (am_transmute def red op n).
Proof.
  intros Hop. induction n as [bits values x IH|l|s] using mnode_ind'; cbn [am_transmute].
  - destruct op as [f|r]; try (apply asks_ret; exact Logic.I). apply asks_free; [|intros a; apply free_lift].
    eapply asks_weak; [apply (aloop_asks fe fh def Hdef _ (fun _ => 0) (fun _ => 0))| | |auto]; [|rewrite tot_zero; lia|rewrite tot_zero; lia].
    intros i a _. unfold ac_transmute_step. apply asks_pure. intros [res|e] Ho; [|apply asks_ret; exact Logic.I].
    apply bat_bit_in in Ho. cbn [bvalues] in Ho. apply in_map_iff in Ho. destruct Ho as (c' & <- & Hc). rewrite Forall_forall in IH.
    apply asks_free; [exact (IH c' Hc)|]. intros m. apply apush_new_free; assumption.
  - apply al_transmute_free; assumption.
  - apply as_transmute_free; assumption.
Qed.
End One.

(** * The traversals *)
Section Traverse.
Context {E : Env} {Q : Type} {A : Q -> Type} (fe fh : Q -> bool) {K V L W S X R T : Type}.
Context (def : prog A R) (red : R -> R -> prog A R) (Hdef : free fe fh def) (Hred : forall a b, free fe fh (red a b)).
Context (add : acc S X R -> N -> option (mnode K V) -> option (mnode L W) -> T -> prog A (acc S X R)).
Context (lone : mnode K V -> prog A T) (rone : mnode L W -> prog A T) (done : acc S X R -> outcome T).
Context (Hadd : forall a i ol or t, free fe fh (add a i ol or t)) (Hlone : forall n, free fe fh (lone n)) (Hrone : forall n, free fe fh (rone n)).

Definition eqs (n : mnode K V) (r : mnode L W) : N := N.min (lenN (m_visit n) * longest r) (lenN (m_visit r) * longest n).
Definition hashes (n : mnode K V) (r : mnode L W) : N := (2 + N.max (branches n) (branches r)) * N.max 1 (N.min (lenN (m_visit n)) (lenN (m_visit r))).

Section Leaf.
Context (hash : L -> prog A word) (leaf : lnext K V -> lnext L W -> N -> prog A T).
Context (Hhash : forall l, asks fe fh 0 1 any (hash l)).
Context (Hleaf : forall this right d, asks fe fh (lenN (m_visit (next_mnode this)) * lenN (m_visit (next_mnode right))) 2 any (leaf this right d)).

Lemma am_leaf_asks right n : forall d0 d, loose d0 n ->
  asks fe fh (longest n * lenN (m_visit (next_mnode right))) (branches n + 2) any (am_leaf def add lone rone done hash leaf right n d).
Proof.
  induction n as [bits values x IH|l|s] using mnode_ind'; intros d0 d HL; cbn [am_leaf].
  - inversion HL as [| |d1 b1 v1 x1 _ Hok _ _ Hch]; subst.
    remember (longest (MC (BIA bits values x)) * lenN (m_visit (next_mnode right))) as EB eqn:HEB.
    remember (branches (MC (BIA bits values x))) as HB eqn:HHB.
    apply asks_hash; [apply Hhash|lia|]. intros h. apply asks_pure. intros flag _.
    eapply asks_then with (P := any); [eapply asks_weak; [apply (aloop_asks fe fh def Hdef _ (fun i => if fl_flag flag =? 2 ^ i then EB else 0) (fun i => if fl_flag flag =? 2 ^ i then HB + 1 else 0))| | |auto]|reflexivity|reflexivity|].
    + intros i a Hi. apply range_in in Hi. unfold acl_step. rewrite bat_bit_index_slot by (try assumption; lia). rewrite nth_bit_ok by lia. cbn [unwrap_ok lift pbind].
      destruct (getv bits values i) as [c|] eqn:Hg.
      * apply getv_in in Hg. destruct (N.eqb_spec (fl_flag flag) (2 ^ i)) as [Hf|Hf].
        -- rewrite Forall_forall in IH. eapply asks_then; [apply (IH c Hg (d0 + 1)); apply Hch; exact Hg| | |].
           ++ rewrite HEB. apply N.mul_le_mono_r. apply longest_child. exact Hg.
           ++ pose proof (branches_child bits values x c Hg). lia.
           ++ intros t _. zero Hadd.
        -- apply asks_free; [apply Hlone|]. intros t. apply Hadd.
      * destruct (N.eqb_spec (fl_flag flag) (2 ^ i)) as [Hf|Hf]; [|apply asks_ret; exact Logic.I].
        apply asks_free; [apply Hrone|]. intros t. zero Hadd.
    + apply tot_one. apply range_nodup.
    + etransitivity; [apply tot_one; apply range_nodup|]. lia.
    + intros a _. eapply asks_weak; [apply free_lift|lia|lia|auto].
  - eapply asks_weak; [apply Hleaf|reflexivity|lia|auto].
  - eapply asks_weak; [apply Hleaf|reflexivity|lia|auto].
Qed.
End Leaf.

Context (leaf : lnext K V -> lnext L W -> N -> prog A T) (tree_leaf : lnext L W -> mnode K V -> N -> prog A T) (leaf_tree : lnext K V -> mnode L W -> N -> prog A T).
Context (Hleaf : forall this right d, asks fe fh (lenN (m_visit (next_mnode this)) * lenN (m_visit (next_mnode right))) 2 any (leaf this right d)).
Context (Htree : forall right n d0 d, loose d0 n -> asks fe fh (longest n * lenN (m_visit (next_mnode right))) (branches n + 2) any (tree_leaf right n d)).
Context (Hleft : forall this n d0 d, loose d0 n -> asks fe fh (longest n * lenN (m_visit (next_mnode this))) (branches n + 2) any (leaf_tree this n d)).

Lemma leaf_fits this right d : asks fe fh (eqs (next_mnode this) (next_mnode right)) (hashes (next_mnode this) (next_mnode right)) any (leaf this right d).
Proof using Hleaf. eapply asks_weak; [apply Hleaf| | |auto]; unfold eqs, hashes; rewrite ?leaf_longest, ?leaf_branches; clear; lia. Qed.
Lemma tree_fits right n d0 d : loose d0 n -> asks fe fh (eqs n (next_mnode right)) (hashes n (next_mnode right)) any (tree_leaf right n d).
Proof using Htree.
  intros HL. eapply asks_weak; [exact (Htree right n d0 d HL)| | |auto]; unfold eqs, hashes; rewrite ?leaf_longest, ?leaf_branches.
  - pose proof (longest_len n) as H. clear - H. nia.
  - clear. nia.
Qed.
Lemma left_fits this n d0 d : loose d0 n -> asks fe fh (eqs (next_mnode this) n) (hashes (next_mnode this) n) any (leaf_tree this n d).
Proof using Hleft.
  intros HL. eapply asks_weak; [exact (Hleft this n d0 d HL)| | |auto]; unfold eqs, hashes; rewrite ?leaf_longest, ?leaf_branches.
  - pose proof (longest_len n) as H. clear - H. nia.
  - clear. nia.
Qed.

(** One slot of two branches. *)
Definition slot_e (ol : option (mnode K V)) (or : option (mnode L W)) : N := match ol, or with Some l, Some r => eqs l r | _, _ => 0 end.
Definition slot_h (ol : option (mnode K V)) (or : option (mnode L W)) : N := match ol, or with Some l, Some r => hashes l r | _, _ => 0 end.

Lemma slots_fit d bits values x bits' values' x' : loose d (MC (BIA bits values x)) -> loose d (MC (BIA bits' values' x')) ->
  tot (fun i => slot_e (getv bits values i) (getv bits' values' i)) (range 0 (max_ones fw)) <= eqs (MC (BIA bits values x)) (MC (BIA bits' values' x')) /\
  tot (fun i => slot_h (getv bits values i) (getv bits' values' i)) (range 0 (max_ones fw)) <= hashes (MC (BIA bits values x)) (MC (BIA bits' values' x')).
Proof using E.
  clear Hdef Hred Hadd Hlone Hrone Hleaf Htree Hleft def red add lone rone done leaf tree_leaf leaf_tree.
  clear fe fh A Q S X R T. intros HL HR. inversion HL as [| |d1 b1 v1 x1 _ Hok _ _ Hch]; subst. inversion HR as [| |d1 b1 v1 x1 _ Hok' _ _ Hch']; subst.
  match goal with |- context [eqs ?n ?r] => set (N1 := n) in *; set (N2 := r) in * end.
  assert (Hn : tot (fun i => lenN (ovisit (getv bits values i))) (range 0 (max_ones fw)) = lenN (m_visit N1)).
  { rewrite tot_len. unfold N1. rewrite <- (visit_C bits values x _ Hok). reflexivity. }
  assert (Hr : tot (fun i => lenN (ovisit (getv bits' values' i))) (range 0 (max_ones fw)) = lenN (m_visit N2)).
  { rewrite tot_len. unfold N2. rewrite <- (visit_C bits' values' x' _ Hok'). reflexivity. }
  assert (Hc : forall i c, getv bits values i = Some c -> longest c <= longest N1 /\ branches c <= branches N1 /\ 1 <= lenN (m_visit c)).
  { intros i c Hg. apply getv_in in Hg. pose proof (longest_child bits values x c Hg).
    pose proof (branches_child bits values x c Hg). unfold N1. repeat split; [lia|lia|].
    pose proof (loose_some _ _ (Hch c Hg) ltac:(lia)) as Hne. destruct (m_visit c); [contradiction|]. rewrite len_cons. lia. }
  assert (Hc' : forall i c, getv bits' values' i = Some c -> longest c <= longest N2 /\ branches c <= branches N2 /\ 1 <= lenN (m_visit c)).
  { intros i c Hg. apply getv_in in Hg. pose proof (longest_child bits' values' x' c Hg).
    pose proof (branches_child bits' values' x' c Hg). unfold N2. repeat split; [lia|lia|].
    pose proof (loose_some _ _ (Hch' c Hg) ltac:(lia)) as Hne. destruct (m_visit c); [contradiction|]. rewrite len_cons. lia. }
  split.
  - unfold eqs. apply N.min_glb.
    + rewrite <- Hn, <- tot_scale. apply tot_le. intros i _. unfold slot_e. destruct (getv bits values i) as [c|] eqn:Hg; [|apply N.le_0_l].
      destruct (getv bits' values' i) as [c'|] eqn:Hg'; [|apply N.le_0_l]. cbn [ovisit]. unfold eqs. destruct (Hc' i c' Hg') as (H1 & _). nia.
    + rewrite <- Hr, <- tot_scale. apply tot_le. intros i _. unfold slot_e. destruct (getv bits values i) as [c|] eqn:Hg; [|apply N.le_0_l].
      destruct (getv bits' values' i) as [c'|] eqn:Hg'; [|apply N.le_0_l]. cbn [ovisit]. unfold eqs. destruct (Hc i c Hg) as (H1 & _). nia.
  - assert (H1 : tot (fun i => slot_h (getv bits values i) (getv bits' values' i)) (range 0 (max_ones fw)) <= lenN (m_visit N1) * (2 + N.max (branches N1) (branches N2))).
    { rewrite <- Hn, <- tot_scale. apply tot_le. intros i _. unfold slot_h. destruct (getv bits values i) as [c|] eqn:Hg; [|apply N.le_0_l].
      destruct (getv bits' values' i) as [c'|] eqn:Hg'; [|apply N.le_0_l]. cbn [ovisit]. unfold hashes.
      destruct (Hc i c Hg) as (_ & H1 & H2). destruct (Hc' i c' Hg') as (_ & H3 & H4). rewrite N.mul_comm. apply N.mul_le_mono; lia. }
    assert (H2 : tot (fun i => slot_h (getv bits values i) (getv bits' values' i)) (range 0 (max_ones fw)) <= lenN (m_visit N2) * (2 + N.max (branches N1) (branches N2))).
    { rewrite <- Hr, <- tot_scale. apply tot_le. intros i _. unfold slot_h. destruct (getv bits values i) as [c|] eqn:Hg; [|apply N.le_0_l].
      destruct (getv bits' values' i) as [c'|] eqn:Hg'; [|apply N.le_0_l]. cbn [ovisit]. unfold hashes.
      destruct (Hc i c Hg) as (_ & H5 & H2). destruct (Hc' i c' Hg') as (_ & H3 & H4). rewrite N.mul_comm. apply N.mul_le_mono; lia. }
    unfold hashes. remember (2 + N.max (branches N1) (branches N2)) as B. destruct (N.min_spec (lenN (m_visit N1)) (lenN (m_visit N2))) as [[_ ->]|[_ ->]]; nia.
Qed.

Lemma acc_step_asks d bits values x bits' values' x' (rec : mnode K V -> mnode L W -> prog A T) :
  loose d (MC (BIA bits values x)) -> loose d (MC (BIA bits' values' x')) ->
  (forall c c', In c values -> loose (d + 1) c -> loose (d + 1) c' -> asks fe fh (eqs c c') (hashes c c') any (rec c c')) ->
  forall i a, i < max_ones fw -> asks fe fh (slot_e (getv bits values i) (getv bits' values' i)) (slot_h (getv bits values i) (getv bits' values' i)) any
    (acc_step add lone rone (BIA bits (map (fun c => (c, rec c)) values) x) (BIA bits' values' x') a i).
Proof using Hadd Hlone Hrone.
  clear Hdef Hred Hleaf Htree Hleft def red done leaf tree_leaf leaf_tree. intros HL HR Hrec i a Hi. inversion HL as [| |d1 b1 v1 x1 _ Hok _ _ Hch]; subst. inversion HR as [| |d1 b1 v1 x1 _ Hok' _ _ Hch']; subst.
  unfold acc_step. rewrite bat_bit_index_slot by assumption. rewrite bat_slot by assumption. cbn [lift pbind].
  destruct (getv bits values i) as [c|] eqn:Hg, (getv bits' values' i) as [c'|] eqn:Hg'; cbn [slot_e slot_h].
  - apply getv_in in Hg. apply getv_in in Hg'. eapply asks_then; [apply Hrec; auto|reflexivity|reflexivity|]. intros t _. zero Hadd.
  - apply asks_free; [apply Hlone|]. intros t. apply Hadd.
  - apply asks_free; [apply Hrone|]. intros t. apply Hadd.
  - apply asks_ret. exact Logic.I.
Qed.

Lemma am_joint_asks n : forall r d0 d, loose d0 n -> loose d0 r ->
  asks fe fh (eqs n r) (hashes n r) any (am_joint def add lone rone done leaf tree_leaf leaf_tree n r d).
Proof.
  induction n as [bits values x IH|l|s] using mnode_ind'; intros r d0 d HL HR; cbn [am_joint].
  - destruct r as [[bits' values' x']|r|r]; [|exact (tree_fits (NL r) _ d0 d HL)|exact (tree_fits (NS r) _ d0 d HL)].
    destruct (slots_fit d0 bits values x bits' values' x' HL HR) as [H1 H2].
    eapply asks_then with (P := any); [eapply asks_weak; [apply (aloop_asks fe fh def Hdef _ (fun i => slot_e (getv bits values i) (getv bits' values' i)) (fun i => slot_h (getv bits values i) (getv bits' values' i)))|exact H1|exact H2|auto]|reflexivity|reflexivity|].
    + intros i a Hi. apply range_in in Hi. apply (acc_step_asks d0 bits values x bits' values' x' (fun c r => am_joint def add lone rone done leaf tree_leaf leaf_tree c r (d + 1))); try assumption; [|lia].
      intros c c' Hc HLc HLc'. rewrite Forall_forall in IH. apply (IH c Hc c' (d0 + 1)); assumption.
    + intros a _. eapply asks_weak; [apply free_lift|lia|lia|auto].
  - destruct r as [b|r|r]; [exact (left_fits (NL l) _ d0 d HR)|exact (leaf_fits (NL l) (NL r) d)|exact (leaf_fits (NL l) (NS r) d)].
  - destruct r as [b|r|r]; [exact (left_fits (NS s) _ d0 d HR)|exact (leaf_fits (NS s) (NL r) d)|exact (leaf_fits (NS s) (NS r) d)].
Qed.
End Traverse.
