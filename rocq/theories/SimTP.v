(** Two runs side by side, one with constants: the traversals. *)
From Coq Require Import NArith Arith List Bool Lia ZifyBool ZifyN ZifyNat.
From Verif Require Import Base Words WordsP Flag Bia BiaP Node Inv Api Trans Transform Joint JointT Profile Eff EffP EffApi Ask AskP AskT AskJ LoopP SpecConst SimP SimLP SimJP.
Import ListNotations.
Open Scope N_scope.

(** A leaf, or a branch below the root. *)
Definition sub {E : Env} {K V} (n : mnode K V) : Prop := match n with MC _ => exists d, d <> 0 /\ loose d n | _ => True end.
Lemma sub_loose {E : Env} {K V} d (n : mnode K V) : d <> 0 -> loose d n -> sub n.
Proof. intros H1 H2. destruct n; [exists d; auto|exact I..]. Qed.

Section Sim.
Context {E : Env} {Q : Type} {A : Q -> Type} (keep soft : Q -> bool) (fair : event (A := A) -> Prop).
Notation sim := (sim keep soft fair).
Notation idle := (idle keep fair).
Notation tlike := (tlike keep soft fair).
Notation mlike := (mlike keep soft fair).
Notation ksim := (ksim keep soft fair).
Context {R : Type} (def : prog A R) (red : R -> R -> prog A R).
Context (Hdef : sim any2 def def) (Hdefi : R -> idle def any).
Context (Hred : forall x y x1 y1, sim any2 (red x y) (red x1 y1)) (Hredi : forall x y, idle (red x y) any).

Section Traverse.
Context {K V L W S X T : Type} (rel : T -> T -> Prop).
Context (add : acc S X R -> N -> option (mnode K V) -> option (mnode L W) -> T -> prog A (acc S X R)).
Context (lone lone1 : mnode K V -> prog A T) (rone rone1 : mnode L W -> prog A T) (done : acc S X R -> outcome T).
Context (Hadd : forall a a1 i ol or t t1, arel a a1 -> rel t t1 -> sim arel (add a i ol or t) (add a1 i ol or t1)).
Context (Hlone : forall n, sub n -> sim rel (lone n) (lone1 n)) (Hrone : forall n, sub n -> sim rel (rone n) (rone1 n)).
Context (Hdone : forall a a1, arel a a1 -> orel rel (done a) (done a1)).
Context (hash : L -> prog A word) (Hhash : forall k, sim eq (hash k) (hash k)).
Context (leaf leaf1 : lnext K V -> lnext L W -> N -> prog A T) (Hleaf : forall l r d, sim rel (leaf l r d) (leaf1 l r d)).

Lemma am_leaf_sim right n : forall d depth, loose d n ->
  sim rel (am_leaf def add lone rone done hash leaf right n depth) (am_leaf def add lone1 rone1 done hash leaf1 right n depth).
Proof.
  induction n as [bits values x IH|l|s] using mnode_ind'; intros d depth Hs; cbn [am_leaf]; [|apply Hleaf..].
  rewrite Forall_forall in IH. inversion Hs as [| |? ? ? ? Hd Hok Hne Hx Hch]; subst.
  eapply sim_bind; [apply Hhash|]. intros h ? <-. eapply sim_bind; [apply sim_lift_eq|]. intros flag ? <-.
  eapply sim_bind; [|intros a a1 Ha; apply sim_lift, Hdone, Ha]. apply (aloop_sim keep soft fair def red Hdef Hdefi Hred Hredi); [|lia].
  intros a a1 i Hi Ha. unfold acl_step. rewrite !bat_bit_index_slot by assumption. cbn [lift pbind].
  eapply sim_bind; [apply sim_lift_eq|]. intros bit ? <-.
  destruct (getv bits values i) as [c|] eqn:Hg.
  - pose proof (getv_in _ _ _ _ Hg) as Hc. destruct (_ =? bit).
    + eapply sim_bind; [exact (IH c Hc (d + 1) (depth + 1) (Hch c Hc))|]. intros t t1 Ht. apply Hadd; assumption.
    + eapply sim_bind; [apply Hlone; apply (sub_loose (d + 1)); [lia|exact (Hch c Hc)]|]. intros t t1 Ht. apply Hadd; assumption.
  - destruct (_ =? bit); [|apply sim_ret, Ha]. eapply sim_bind; [apply Hrone; destruct right; exact I|]. intros t t1 Ht. apply Hadd; assumption.
Qed.

Context (tree_leaf tree_leaf1 : lnext L W -> mnode K V -> N -> prog A T) (leaf_tree leaf_tree1 : lnext K V -> mnode L W -> N -> prog A T).
Context (Htl : forall r n d depth, loose d n -> sim rel (tree_leaf r n depth) (tree_leaf1 r n depth)).
Context (Hlt : forall l n d depth, loose d n -> sim rel (leaf_tree l n depth) (leaf_tree1 l n depth)).

Lemma am_joint_sim n : forall right d depth, loose d n -> loose d right ->
  sim rel (am_joint def add lone rone done leaf tree_leaf leaf_tree n right depth) (am_joint def add lone1 rone1 done leaf1 tree_leaf1 leaf_tree1 n right depth).
Proof.
  induction n as [bits values x IH|l|s] using mnode_ind'; intros right d depth Hs Hr.
  - destruct right as [[rbits rvalues rx]|r|r]; cbn [am_joint]; [|eapply Htl; eassumption..].
    rewrite Forall_forall in IH. inversion Hs as [| |? ? ? ? Hd Hok Hne Hx Hch]; subst. inversion Hr as [| |? ? ? ? Hd' Hok' Hne' Hx' Hch']; subst.
    eapply sim_bind; [|intros a a1 Ha; apply sim_lift, Hdone, Ha]. apply (aloop_sim keep soft fair def red Hdef Hdefi Hred Hredi); [|lia].
    intros a a1 i Hi Ha. unfold acc_step. rewrite !bat_bit_index_slot by assumption. cbn [lift pbind].
    pose proof (bat_bit_index_slot (fun c : mnode L W => c) fw rbits rvalues (lenN (concat (map m_visit rvalues))) i Hok' Hi) as Hslot. rewrite map_id in Hslot. rewrite Hslot. cbn [lift pbind].
    destruct (getv bits values i) as [c|] eqn:Hg; destruct (getv rbits rvalues i) as [c'|] eqn:Hg'.
    + pose proof (getv_in _ _ _ _ Hg) as Hc. pose proof (getv_in _ _ _ _ Hg') as Hc'.
      eapply sim_bind; [exact (IH c Hc c' (d + 1) (depth + 1) (Hch c Hc) (Hch' c' Hc'))|]. intros t t1 Ht. apply Hadd; assumption.
    + pose proof (getv_in _ _ _ _ Hg) as Hc. eapply sim_bind; [apply Hlone; apply (sub_loose (d + 1)); [lia|exact (Hch c Hc)]|]. intros t t1 Ht. apply Hadd; assumption.
    + pose proof (getv_in _ _ _ _ Hg') as Hc. eapply sim_bind; [apply Hrone; apply (sub_loose (d + 1)); [lia|exact (Hch' c' Hc)]|]. intros t t1 Ht. apply Hadd; assumption.
    + apply sim_ret, Ha.
  - destruct right; cbn [am_joint]; [eapply Hlt; eassumption|apply Hleaf..].
  - destruct right; cbn [am_joint]; [eapply Hlt; eassumption|apply Hleaf..].
Qed.
End Traverse.

Lemma tm_done_rel {K V} (a a1 : acc K V R) : arel a a1 -> orel trel (tm_done a) (tm_done a1).
Proof.
  intros Ha. pose proof Ha as (H1 & H2 & H3 & H4 & H5). unfold tm_done. rewrite H4. destruct (a_ul a1); [exact I|].
  pose proof (finish_rel a a1 Ha) as HF. destruct (finish a), (finish a1); cbn in *; auto.
Qed.
Lemma mt_done_rel {K V} (a a1 : acc K V R) : arel a a1 -> orel trel (mt_done a) (mt_done a1).
Proof.
  intros Ha. pose proof Ha as (H1 & H2 & H3 & H4 & H5). unfold mt_done. rewrite H5. destruct (a_ur a1); [exact I|].
  pose proof (finish_rel a a1 Ha) as HF. destruct (finish a), (finish a1); cbn in *; auto.
Qed.

(** * The families *)
Lemma one_t_sim {K V} (ck : K -> prog A K) (cv : V -> prog A V) st op op1 (n : mnode K V) :
  (forall k, sim eq (ck k) (ck k)) -> (forall v, sim eq (cv v) (cv v)) -> tlike op op1 -> sub n ->
  sim trel (am_transform def red ck cv st op n) (am_transform def red ck cv st op1 n).
Proof.
  intros Hck Hcv H Hs. destruct n as [b|l|s]; cbn [sub] in Hs; [destruct Hs as (d & H1 & H2); eapply am_transform_sim; eassumption|..]; cbn [am_transform];
    [apply al_transform_sim; assumption|apply as_transform_sim; assumption].
Qed.
Lemma one_m_sim {K V S X} (op op1 : etransmute A (K * V) S X R) (n : mnode K V) : mlike op op1 -> sub n -> sim nrel (am_transmute def red op n) (am_transmute def red op1 n).
Proof.
  intros H Hs. destruct n as [b|l|s]; cbn [sub] in Hs; [destruct Hs as (d & H1 & H2); eapply am_transmute_sim; eassumption|..]; cbn [am_transmute];
    [apply al_transmute_sim; assumption|apply as_transmute_sim; assumption].
Qed.
Lemma one_mt_sim {K V S X} (op op1 : etransmute A (K * V) S X R) (n : mnode K V) : mlike op op1 -> sub n ->
  sim trel (let+ x := am_transmute def red op n in PRet (TN x)) (let+ x := am_transmute def red op1 n in PRet (TN x)).
Proof. intros H Hs. eapply sim_bind; [apply one_m_sim; eassumption|]. intros x x1 Hx. apply sim_ret. exact Hx. Qed.

Section TM.
Context {K V L W : Type} (ck : K -> prog A K) (cv : V -> prog A V) (ky : keyed A K L) (st : strategy).
Context (Hck : forall k, sim eq (ck k) (ck k)) (Hcv : forall v, sim eq (cv v) (cv v)) (Hky : ksim ky).
Context (both both1 : etransform A ((K * V) * (L * W)) V R) (lop lop1 : etransform A (K * V) V R) (rop rop1 : etransmute A (L * W) K V R).
Context (Hb : tlike both both1) (Hl : tlike lop lop1) (Hr : mlike rop rop1).
Lemma atm_leaf_sim l r d : sim trel (atm_leaf red ck cv ky both lop rop l r d) (atm_leaf red ck cv ky both1 lop1 rop1 l r d).
Proof.
  destruct l, r; cbn [atm_leaf]; [apply atm_lnode_sim|apply atm_lsnode_sim|apply amt_lsnode_sim|apply atm_snode_sim]; try assumption.
  - apply ksim_flip, Hky.
  - apply tlike_flip, Hb.
Qed.
Lemma atm_tree_leaf_sim r n d depth : loose d n -> sim trel (atm_tree_leaf def red ck cv ky st both lop rop r n depth) (atm_tree_leaf def red ck cv ky st both1 lop1 rop1 r n depth).
Proof.
  intros Hn. unfold atm_tree_leaf. apply (am_leaf_sim trel) with (d := d); [..|exact Hn].
  - intros. apply atm_add_sim; assumption.
  - intros x Hx. apply one_t_sim; assumption.
  - intros x Hx. apply one_mt_sim; assumption.
  - apply tm_done_rel.
  - apply (ks_hash' _ _ _ _ Hky).
  - apply atm_leaf_sim.
Qed.
End TM.

Section MT.
Context {K V L W : Type} (cl : L -> prog A L) (cw : W -> prog A W) (ky : keyed A K L) (st : strategy).
Context (Hcl : forall k, sim eq (cl k) (cl k)) (Hcw : forall v, sim eq (cw v) (cw v)) (Hky : ksim ky).
Context (both both1 : etransform A ((K * V) * (L * W)) W R) (lop lop1 : etransmute A (K * V) L W R) (rop rop1 : etransform A (L * W) W R).
Context (Hb : tlike both both1) (Hl : mlike lop lop1) (Hr : tlike rop rop1).
Lemma amt_leaf_sim l r d : sim trel (amt_leaf red cl cw ky both lop rop l r d) (amt_leaf red cl cw ky both1 lop1 rop1 l r d).
Proof.
  destruct l, r; cbn [amt_leaf]; [apply atm_lnode_sim|apply amt_lsnode_sim|apply atm_lsnode_sim|apply amt_snode_sim]; try assumption.
  1,3: apply ksim_flip, Hky.
  all: apply tlike_flip, Hb.
Qed.
Lemma amt_tree_leaf_sim r n d depth : loose d n -> sim trel (amt_tree_leaf def red cl cw ky st both lop rop r n depth) (amt_tree_leaf def red cl cw ky st both1 lop1 rop1 r n depth).
Proof.
  intros Hn. unfold amt_tree_leaf. apply (am_leaf_sim trel) with (d := d); [..|exact Hn].
  - intros. apply amt_add_sim; assumption.
  - intros x Hx. apply one_mt_sim; assumption.
  - intros x Hx. apply one_t_sim; assumption.
  - apply mt_done_rel.
  - apply (ks_hash' _ _ _ _ Hky).
  - apply amt_leaf_sim.
Qed.
End MT.

Section MM.
Context {K V L W S X : Type} (ky : keyed A K L) (Hky : ksim ky).
Context (both both1 : etransmute A ((K * V) * (L * W)) S X R) (lop lop1 : etransmute A (K * V) S X R) (rop rop1 : etransmute A (L * W) S X R).
Context (Hb : mlike both both1) (Hl : mlike lop lop1) (Hr : mlike rop rop1).
Lemma amm_leaf_sim l r d : sim nrel (amm_leaf red ky both lop rop l r d) (amm_leaf red ky both1 lop1 rop1 l r d).
Proof.
  destruct l, r; cbn [amm_leaf]; [apply amm_lnode_sim|apply amm_lsnode_sim|apply amm_lsnode_sim|apply amm_snode_sim]; try assumption.
  - apply ksim_flip, Hky.
  - apply mlike_flip, Hb.
Qed.
Lemma amm_tree_leaf_sim r n d depth : loose d n -> sim nrel (amm_tree_leaf def red ky both lop rop r n depth) (amm_tree_leaf def red ky both1 lop1 rop1 r n depth).
Proof.
  intros Hn. unfold amm_tree_leaf. apply (am_leaf_sim nrel) with (d := d); [..|exact Hn].
  - intros. apply amm_add_sim; assumption.
  - intros x Hx. apply one_m_sim; assumption.
  - intros x Hx. apply one_m_sim; assumption.
  - intros. apply finish_rel. assumption.
  - apply (ks_hash' _ _ _ _ Hky).
  - apply amm_leaf_sim.
Qed.
End MM.

Section Joint.
Context {K V L W : Type} (ky : keyed A K L) (st : strategy) (Hky : ksim ky).
Lemma am_tm_sim (ck : K -> prog A K) (cv : V -> prog A V) both both1 lop lop1 rop rop1 n (right : mnode L W) d depth :
  (forall k, sim eq (ck k) (ck k)) -> (forall v, sim eq (cv v) (cv v)) -> tlike both both1 -> tlike lop lop1 -> mlike rop rop1 -> loose d n -> loose d right ->
  sim trel (am_tm def red ky st ck cv both lop rop n right depth) (am_tm def red ky st ck cv both1 lop1 rop1 n right depth).
Proof.
  intros Hck Hcv Hb Hl Hr Hn Hm. unfold am_tm. apply (am_joint_sim trel) with (d := d); [..|exact Hn|exact Hm].
  - intros. apply atm_add_sim; assumption.
  - intros x Hx. apply one_t_sim; assumption.
  - intros x Hx. apply one_mt_sim; assumption.
  - apply tm_done_rel.
  - intros. apply atm_leaf_sim; assumption.
  - intros. eapply atm_tree_leaf_sim; eassumption.
  - intros. eapply amt_tree_leaf_sim; try eassumption; [apply ksim_flip, Hky|apply tlike_flip, Hb].
Qed.
Lemma am_mt_sim (cl : L -> prog A L) (cw : W -> prog A W) both both1 lop lop1 rop rop1 (n : mnode K V) right d depth :
  (forall k, sim eq (cl k) (cl k)) -> (forall v, sim eq (cw v) (cw v)) -> tlike both both1 -> mlike lop lop1 -> tlike rop rop1 -> loose d n -> loose d right ->
  sim trel (am_mt def red ky st cl cw both lop rop n right depth) (am_mt def red ky st cl cw both1 lop1 rop1 n right depth).
Proof.
  intros Hck Hcv Hb Hl Hr Hn Hm. unfold am_mt. apply (am_joint_sim trel) with (d := d); [..|exact Hn|exact Hm].
  - intros. apply amt_add_sim; assumption.
  - intros x Hx. apply one_mt_sim; assumption.
  - intros x Hx. apply one_t_sim; assumption.
  - apply mt_done_rel.
  - intros. apply amt_leaf_sim; assumption.
  - intros. eapply amt_tree_leaf_sim; eassumption.
  - intros. eapply atm_tree_leaf_sim; try eassumption; [apply ksim_flip, Hky|apply tlike_flip, Hb].
Qed.
Lemma am_mm_sim {S X} (both both1 : etransmute A ((K * V) * (L * W)) S X R) lop lop1 rop rop1 (n : mnode K V) right d depth :
  mlike both both1 -> mlike lop lop1 -> mlike rop rop1 -> loose d n -> loose d right ->
  sim nrel (am_mm def red ky both lop rop n right depth) (am_mm def red ky both1 lop1 rop1 n right depth).
Proof.
  intros Hb Hl Hr Hn Hm. unfold am_mm. apply (am_joint_sim nrel) with (d := d); [..|exact Hn|exact Hm].
  - intros. apply amm_add_sim; assumption.
  - intros x Hx. apply one_m_sim; assumption.
  - intros x Hx. apply one_m_sim; assumption.
  - intros. apply finish_rel. assumption.
  - intros. apply amm_leaf_sim; assumption.
  - intros. eapply amm_tree_leaf_sim; eassumption.
  - intros. eapply amm_tree_leaf_sim; try eassumption; [apply ksim_flip, Hky|apply mlike_flip, Hb].
Qed.
End Joint.
End Sim.
