(** How often the joint operations compare and hash keys: the operations themselves. *)
From Coq Require Import NArith Arith List Bool Lia ZifyBool ZifyN ZifyNat.
From Verif Require Import Base Words WordsP Flag Bia BiaP Node Inv Api Trans Transform Joint JointT Sets Profile Eff EffP EffT EffJ EffApi EffSet Ask AskP AskT AskJ AskTw
  AskSet AskApiP Misuse SpecAsk SpecCount JointLeafP AskJTravP AskCountP AskCountLP AskCountTP.
Import ListNotations.
Open Scope N_scope.

(** * transform_with_transmuted and transmute_with_transformed *)
Section TMs.
Context {E : Env} {Q : Type} {A : Q -> Type} (fe fh : Q -> bool) {R : Type}.
Context (def : prog A R) (red : R -> R -> prog A R) (Hdef : free fe fh def) (Hred : forall a b, free fe fh (red a b)) (st : strategy).
Notation cost this right := (lenN (m_visit (next_mnode this)) * lenN (m_visit (next_mnode right))).

Section TM.
Context {K V L W : Type} (ck : K -> prog A K) (cv : V -> prog A V) (ky : keyed A K L).
Context (Hck : forall k, free fe fh (ck k)) (Hcv : forall v, free fe fh (cv v)) (Hky : priced fe fh ky).
Context (both : etransform A ((K * V) * (L * W)) V R) (lop : etransform A (K * V) V R) (rop : etransmute A (L * W) K V R).
Context (Hb : quiet fe fh both) (Hl : quiet fe fh lop) (Hr : mquiet fe fh rop).

Lemma atm_leaf_asks this right d : asks fe fh (cost this right) 2 any (atm_leaf red ck cv ky both lop rop this right d).
Proof.
  destruct this as [l|s], right as [r|r]; cbn [atm_leaf next_mnode m_visit]; rewrite ?len_s, ?N.mul_1_r, ?N.mul_1_l.
  - apply atm_lnode_asks; assumption.
  - apply atm_lsnode_asks; assumption.
  - apply amt_lsnode_asks; try assumption; [apply priced_flip|apply quiet_flip]; assumption.
  - apply atm_snode_asks; assumption.
Qed.
Lemma atm_tree_leaf_asks right n d0 d : loose d0 n ->
  asks fe fh (longest n * lenN (m_visit (next_mnode right))) (branches n + 2) any (atm_tree_leaf def red ck cv ky st both lop rop right n d).
Proof.
  intros HL. unfold atm_tree_leaf. eapply am_leaf_asks; try eassumption.
  - intros. apply atm_add_free; assumption.
  - intros. apply am_transform_free; assumption.
  - intros. unfold atm_rone. apply asks_free; [apply am_transmute_free; assumption|]. intros x. apply asks_ret. exact Logic.I.
  - apply (pr_hash' _ _ _ Hky).
  - apply atm_leaf_asks.
Qed.
End TM.

Section MT.
Context {K V L W : Type} (cl : L -> prog A L) (cw : W -> prog A W) (ky : keyed A K L).
Context (Hcl : forall k, free fe fh (cl k)) (Hcw : forall v, free fe fh (cw v)) (Hky : priced fe fh ky).
Context (both : etransform A ((K * V) * (L * W)) W R) (lop : etransmute A (K * V) L W R) (rop : etransform A (L * W) W R).
Context (Hb : quiet fe fh both) (Hl : mquiet fe fh lop) (Hr : quiet fe fh rop).

Lemma amt_leaf_asks this right d : asks fe fh (cost this right) 2 any (amt_leaf red cl cw ky both lop rop this right d).
Proof.
  destruct this as [l|s], right as [r|r]; cbn [amt_leaf next_mnode m_visit]; rewrite ?len_s, ?N.mul_1_r, ?N.mul_1_l.
  - rewrite N.mul_comm. apply atm_lnode_asks; try assumption; [apply priced_flip|apply quiet_flip]; assumption.
  - apply amt_lsnode_asks; assumption.
  - apply atm_lsnode_asks; try assumption; [apply priced_flip|apply quiet_flip]; assumption.
  - apply amt_snode_asks; assumption.
Qed.
Lemma amt_tree_leaf_asks right n d0 d : loose d0 n ->
  asks fe fh (longest n * lenN (m_visit (next_mnode right))) (branches n + 2) any (amt_tree_leaf def red cl cw ky st both lop rop right n d).
Proof.
  intros HL. unfold amt_tree_leaf. eapply am_leaf_asks; try eassumption.
  - intros. apply amt_add_free; assumption.
  - intros. unfold amt_lone. apply asks_free; [apply am_transmute_free; assumption|]. intros x. apply asks_ret. exact Logic.I.
  - intros. apply am_transform_free; assumption.
  - apply (pr_hash' _ _ _ Hky).
  - apply amt_leaf_asks.
Qed.
End MT.

Section Both.
Context {K V L W : Type} (ky : keyed A K L) (Hky : priced fe fh ky).
Lemma am_tm_asks (ck : K -> prog A K) (cv : V -> prog A V) (both : etransform A ((K * V) * (L * W)) V R) lop (rop : etransmute A (L * W) K V R) n r d0 d :
  (forall k, free fe fh (ck k)) -> (forall v, free fe fh (cv v)) -> quiet fe fh both -> quiet fe fh lop -> mquiet fe fh rop -> loose d0 n -> loose d0 r ->
  asks fe fh (eqs n r) (hashes n r) any (am_tm def red ky st ck cv both lop rop n r d).
Proof.
  intros Hck Hcv Hb Hl Hr HL HR. unfold am_tm. eapply am_joint_asks; try eassumption.
  - intros. apply atm_add_free; assumption.
  - intros. apply am_transform_free; assumption.
  - intros. unfold atm_rone. apply asks_free; [apply am_transmute_free; assumption|]. intros x. apply asks_ret. exact Logic.I.
  - intros. apply atm_leaf_asks; assumption.
  - intros. eapply atm_tree_leaf_asks; eassumption.
  - intros. eapply amt_tree_leaf_asks; try eassumption; [apply priced_flip|apply quiet_flip]; assumption.
Qed.
Lemma am_mt_asks (cl : L -> prog A L) (cw : W -> prog A W) (both : etransform A ((K * V) * (L * W)) W R) (lop : etransmute A (K * V) L W R) rop n r d0 d :
  (forall k, free fe fh (cl k)) -> (forall v, free fe fh (cw v)) -> quiet fe fh both -> mquiet fe fh lop -> quiet fe fh rop -> loose d0 n -> loose d0 r ->
  asks fe fh (eqs n r) (hashes n r) any (am_mt def red ky st cl cw both lop rop n r d).
Proof.
  intros Hck Hcv Hb Hl Hr HL HR. unfold am_mt. eapply am_joint_asks; try eassumption.
  - intros. apply amt_add_free; assumption.
  - intros. unfold amt_lone. apply asks_free; [apply am_transmute_free; assumption|]. intros x. apply asks_ret. exact Logic.I.
  - intros. apply am_transform_free; assumption.
  - intros. apply amt_leaf_asks; assumption.
  - intros. eapply amt_tree_leaf_asks; eassumption.
  - intros. eapply atm_tree_leaf_asks; try eassumption; [apply priced_flip|apply quiet_flip]; assumption.
Qed.
End Both.
End TMs.

(** * transmute_with_transmuted *)
Section MMs.
Context {E : Env} {Q : Type} {A : Q -> Type} (fe fh : Q -> bool) {S X R : Type}.
Context (def : prog A R) (red : R -> R -> prog A R) (Hdef : free fe fh def) (Hred : forall a b, free fe fh (red a b)).
Section Leaf.
Context {K V L W : Type} (ky : keyed A K L) (Hky : priced fe fh ky).
Context (both : etransmute A ((K * V) * (L * W)) S X R) (lop : etransmute A (K * V) S X R) (rop : etransmute A (L * W) S X R).
Context (Hb : mquiet fe fh both) (Hl : mquiet fe fh lop) (Hr : mquiet fe fh rop).
Lemma amm_leaf_asks this right d : asks fe fh (lenN (m_visit (next_mnode this)) * lenN (m_visit (next_mnode right))) 2 any (amm_leaf red ky both lop rop this right d).
Proof.
  destruct this as [l|s], right as [r|r]; cbn [amm_leaf next_mnode m_visit]; rewrite ?len_s, ?N.mul_1_r, ?N.mul_1_l.
  - apply amm_lnode_asks; assumption.
  - apply amm_lsnode_asks; assumption.
  - apply amm_lsnode_asks; try assumption; [apply priced_flip|apply mquiet_flip]; assumption.
  - apply amm_snode_asks; assumption.
Qed.
Lemma amm_tree_leaf_asks right n d0 d : loose d0 n ->
  asks fe fh (longest n * lenN (m_visit (next_mnode right))) (branches n + 2) any (amm_tree_leaf def red ky both lop rop right n d).
Proof.
  intros HL. unfold amm_tree_leaf. eapply am_leaf_asks; try eassumption.
  - intros. apply amm_add_free; assumption.
  - intros. apply am_transmute_free; assumption.
  - intros. apply am_transmute_free; assumption.
  - apply (pr_hash' _ _ _ Hky).
  - apply amm_leaf_asks.
Qed.
End Leaf.
Lemma am_mm_asks {K V L W : Type} (ky : keyed A K L) (both : etransmute A ((K * V) * (L * W)) S X R) lop rop n r d0 d : priced fe fh ky ->
  mquiet fe fh both -> mquiet fe fh lop -> mquiet fe fh rop -> loose d0 n -> loose d0 r ->
  asks fe fh (eqs n r) (hashes n r) any (am_mm def red ky both lop rop n r d).
Proof.
  intros Hky Hb Hl Hr HL HR. unfold am_mm. eapply am_joint_asks; try eassumption.
  - intros. apply amm_add_free; assumption.
  - intros. apply am_transmute_free; assumption.
  - intros. apply am_transmute_free; assumption.
  - intros. apply amm_leaf_asks; assumption.
  - intros. eapply amm_tree_leaf_asks; eassumption.
  - intros. eapply amm_tree_leaf_asks; try eassumption; [apply priced_flip|apply mquiet_flip]; assumption.
Qed.
End MMs.

(** * transform_with_transformed *)
Section TTs.
Context {E : Env} {Q : Type} {A : Q -> Type} (fe fh : Q -> bool) {K V R : Type}.
Context (def : prog A R) (red : R -> R -> prog A R) (Hdef : free fe fh def) (Hred : forall a b, free fe fh (red a b)) (st : strategy).
Context (ck : K -> prog A K) (cv : V -> prog A V) (Hck : forall k, free fe fh (ck k)) (Hcv : forall v, free fe fh (cv v)).
Section Leaf.
Context (ky : keyed A K K) (Hky : priced fe fh ky) (both : ejoint A (K * V) V R) (lop rop : etransform A (K * V) V R).
Context (Hb : jquiet fe fh both) (Hl : quiet fe fh lop) (Hr : quiet fe fh rop).
Lemma att_leaf_asks this right d : asks fe fh (lenN (m_visit (next_mnode this)) * lenN (m_visit (next_mnode right))) 2 any (att_leaf red ck cv ky both lop rop this right d).
Proof.
  destruct this as [l|s], right as [r|r]; cbn [att_leaf next_mnode m_visit]; rewrite ?len_s, ?N.mul_1_r, ?N.mul_1_l.
  - apply att_lnode_asks; assumption.
  - apply att_lsnode_asks; assumption.
  - eapply asks_then; [apply att_lsnode_asks; try assumption; [apply priced_flip|apply jquiet_flip]; assumption|reflexivity|reflexivity|].
    intros t _. apply asks_ret. exact Logic.I.
  - apply att_snode_asks; assumption.
Qed.
Lemma att_lone_free n : free fe fh (att_lone def red ck cv st lop n).
Proof. unfold att_lone. apply asks_free; [apply am_transform_free; assumption|]. intros x. apply asks_ret. exact Logic.I. Qed.
Lemma att_rone_free n : free fe fh (att_rone def red ck cv st rop n).
Proof. unfold att_rone. apply asks_free; [apply am_transform_free; assumption|]. intros x. apply asks_ret. exact Logic.I. Qed.
Lemma att_tree_leaf_asks right n d0 d : loose d0 n ->
  asks fe fh (longest n * lenN (m_visit (next_mnode right))) (branches n + 2) any (att_tree_leaf def red ck cv ky st both lop rop right n d).
Proof.
  intros HL. unfold att_tree_leaf. eapply am_leaf_asks; try eassumption.
  - intros. apply att_add_free; assumption.
  - apply att_lone_free.
  - apply att_rone_free.
  - apply (pr_hash' _ _ _ Hky).
  - apply att_leaf_asks.
Qed.
End Leaf.

Section Joint.
Context {T : Type} (add : acc K V R -> N -> option (mnode K V) -> option (mnode K V) -> T -> prog A (acc K V R)).
Context (lone rone : mnode K V -> prog A T) (done : acc K V R -> outcome T).
Context (Hadd : forall a i ol or t, free fe fh (add a i ol or t)) (Hlone : forall n, free fe fh (lone n)) (Hrone : forall n, free fe fh (rone n)).
Context (leaf : lnext K V -> lnext K V -> N -> prog A T) (tree_leaf leaf_tree : lnext K V -> mnode K V -> N -> prog A T) (short : option T).
Context (Hleaf : forall this right d, asks fe fh (lenN (m_visit (next_mnode this)) * lenN (m_visit (next_mnode right))) 2 any (leaf this right d)).
Context (Htree : forall right n d0 d, loose d0 n -> asks fe fh (longest n * lenN (m_visit (next_mnode right))) (branches n + 2) any (tree_leaf right n d)).
Context (Hleft : forall this n d0 d, loose d0 n -> asks fe fh (longest n * lenN (m_visit (next_mnode this))) (branches n + 2) any (leaf_tree this n d)).

Lemma atw_joint_asks n : forall r d0 d, loose d0 n -> loose d0 r ->
  asks fe fh (eqs n r) (hashes n r) any (atw_joint def red add lone rone done leaf tree_leaf leaf_tree short st n r d).
Proof.
  pose proof (leaf_fits fe fh leaf Hleaf) as Fl. pose proof (tree_fits fe fh tree_leaf Htree) as Ft. pose proof (left_fits fe fh leaf_tree Hleft) as Fm.
  induction n as [bits values x IH|l|s] using mnode_ind'; intros r d0 d HL HR; cbn [atw_joint].
  - destruct r as [[bits' values' x']|r|r]; [|exact (Ft (NL r) _ d0 d HL)|exact (Ft (NS r) _ d0 d HL)].
    destruct short as [t|]; [apply asks_ret; exact Logic.I|].
    destruct (slots_fit d0 bits values x bits' values' x' HL HR) as [H1 H2].
    eapply asks_then with (P := any); [eapply asks_weak; [apply (arun_loop_asks fe fh def red Hdef Hred st _ (fun i => slot_e (getv bits values i) (getv bits' values' i)) (fun i => slot_h (getv bits values i) (getv bits' values' i)))|exact H1|exact H2|auto]|reflexivity|reflexivity|].
    + intros i a Hi. apply (acc_step_asks fe fh add lone rone Hadd Hlone Hrone d0 bits values x bits' values' x' (fun c r => atw_joint def red add lone rone done leaf tree_leaf leaf_tree None st c r (d + 1))); try assumption.
      intros c c' Hc HLc HLc'. rewrite Forall_forall in IH. apply (IH c Hc c' (d0 + 1)); assumption.
    + intros a _. eapply asks_weak; [apply free_lift|lia|lia|auto].
  - destruct r as [b|r|r]; [exact (Fm (NL l) _ d0 d HR)|exact (Fl (NL l) (NL r) d)|exact (Fl (NL l) (NS r) d)].
  - destruct r as [b|r|r]; [exact (Fm (NS s) _ d0 d HR)|exact (Fl (NS s) (NL r) d)|exact (Fl (NS s) (NS r) d)].
Qed.
End Joint.

Lemma am_tt_asks (ky : keyed A K K) (both : ejoint A (K * V) V R) (lop rop : etransform A (K * V) V R) n r d0 d : priced fe fh ky ->
  jquiet fe fh both -> quiet fe fh lop -> quiet fe fh rop -> loose d0 n -> loose d0 r ->
  asks fe fh (eqs n r) (hashes n r) any (am_tt def red ck cv ky st both lop rop n r d).
Proof.
  intros Hky Hb Hl Hr HL HR. unfold am_tt. eapply atw_joint_asks; try eassumption.
  - intros. apply att_add_free; assumption.
  - apply att_lone_free. assumption.
  - apply att_rone_free. assumption.
  - intros. apply att_leaf_asks; assumption.
  - intros. eapply att_tree_leaf_asks; eassumption.
  - intros. unfold att_leaf_tree. eapply asks_then; [eapply att_tree_leaf_asks; try eassumption; [apply priced_flip|apply jquiet_flip]; assumption|reflexivity|reflexivity|].
    intros t _. apply asks_ret. exact Logic.I.
Qed.
End TTs.

(** * The public operations *)
Section Api.
Context {E : Env} {KL VL KR VR K V TB TL TR R : Type}.
Notation A := (jreply KL VL KR VR K V TB TL TR R).
Notation fe := (@is_jeq KL VL KR VR K V R).
Notation fh := (@is_jhash KL VL KR VR K V R).

Lemma ask_cost (q : jcalls KL VL KR VR K V R) : asks fe fh (if fe q then 1 else 0) (if fh q then 1 else 0) any (PAsk (A := A) q PRet).
Proof.
  pose proof (asks_ask fe fh (A := A) q 0 0 any PRet (fun a => asks_ret fe fh 0 0 any a Logic.I)) as H. rewrite !N.add_0_r in H. exact H.
Qed.
Lemma jkeyed_priced : priced fe fh (@jkeyed E KL VL KR VR R K V TB TL TR).
Proof. constructor; intros; [apply (ask_cost (JHash k))|apply (ask_cost (JHash' l))|apply (ask_cost (JEq k l))|apply (ask_cost (JEq' l k))]. Qed.
Lemma tw_quiet {I W} (w : tway R) (f : I -> prog A (vres W R)) : (forall i, free fe fh (f i)) -> quiet fe fh (tw_op w f).
Proof. intros H i. destruct w; [apply H|apply asks_ret; exact Logic.I..]. Qed.
Lemma mw_quiet {I S X} (w : mway R) (f : I -> prog A (kres S X R)) : (forall i, free fe fh (f i)) -> mquiet fe fh (mw_op w f).
Proof. intros H i. destruct w; [apply H|apply asks_ret; exact Logic.I..]. Qed.
Lemma jw_quiet {I W} (w : jway R) (f : I -> I -> prog A (bres W R)) : (forall i j, free fe fh (f i j)) -> jquiet fe fh (jw_op w f).
Proof. intros H i j. destruct w; try (apply asks_ret; exact Logic.I). apply H. Qed.
End Api.

Lemma few_intro {E : Env} {KL VL KR VR K V TB TL TR R Y} (m : trie KL VL) (right : trie KR VR) (p : prog (jreply KL VL KR VR K V TB TL TR R) Y) :
  misused m -> misused right -> asks is_jeq is_jhash (eqs m right) (hashes m right) any p -> few m right p.
Proof.
  intros Hm Hr Hp tr o Hx. destruct (Hp tr o Hx) as (H1 & H2 & _). rewrite (misused_size m Hm), (misused_size right Hr).
  unfold eqs, hashes in *. unfold map_visit. repeat split; lia.
Qed.

Lemma ask_tm_few {E : Env} {K V L W R} (m : trie K V) (right : trie L W) st wb wl (wr : mway R) : misused m -> misused right -> few m right (ask_tm st wb wl wr m right).
Proof.
  intros Hm Hr. apply few_intro; [assumption..|]. unfold ask_tm. eapply asks_then; [eapply am_tm_asks with (d0 := 0)|reflexivity|reflexivity|].
  - apply (ask_cost JDefault).
  - intros a b. apply (ask_cost (JReduce a b)).
  - apply jkeyed_priced.
  - intros k. apply (ask_cost (JKey k)).
  - intros v. apply (ask_cost (JValue v)).
  - apply tw_quiet. intros i. apply (ask_cost (JBoth (fst i) (snd i))).
  - apply tw_quiet. intros i. apply (ask_cost (JLeft i)).
  - apply mw_quiet. intros i. apply (ask_cost (JRight i)).
  - apply misused_loose. assumption.
  - apply misused_loose. assumption.
  - intros t _. apply asks_ret. exact Logic.I.
Qed.
Lemma ask_mt_few {E : Env} {K V L W R} (m : trie K V) (right : trie L W) st wb wl (wr : tway R) : misused m -> misused right -> few m right (ask_mt st wb wl wr m right).
Proof.
  intros Hm Hr. apply few_intro; [assumption..|]. unfold ask_mt. eapply asks_then; [eapply am_mt_asks with (d0 := 0)|reflexivity|reflexivity|].
  - apply (ask_cost JDefault).
  - intros a b. apply (ask_cost (JReduce a b)).
  - apply jkeyed_priced.
  - intros k. apply (ask_cost (JKey k)).
  - intros v. apply (ask_cost (JValue v)).
  - apply tw_quiet. intros i. apply (ask_cost (JBoth (fst i) (snd i))).
  - apply mw_quiet. intros i. apply (ask_cost (JLeft i)).
  - apply tw_quiet. intros i. apply (ask_cost (JRight i)).
  - apply misused_loose. assumption.
  - apply misused_loose. assumption.
  - intros t _. apply asks_ret. exact Logic.I.
Qed.
Lemma ask_mm_few {E : Env} {K V L W S X R} (m : trie K V) (right : trie L W) wb wl (wr : mway R) : misused m -> misused right -> few m right (ask_mm (S := S) (X := X) wb wl wr m right).
Proof.
  intros Hm Hr. apply few_intro; [assumption..|]. unfold ask_mm. eapply asks_then; [eapply am_mm_asks with (d0 := 0)|reflexivity|reflexivity|].
  - apply (ask_cost JDefault).
  - intros a b. apply (ask_cost (JReduce a b)).
  - apply jkeyed_priced.
  - apply mw_quiet. intros i. apply (ask_cost (JBoth (fst i) (snd i))).
  - apply mw_quiet. intros i. apply (ask_cost (JLeft i)).
  - apply mw_quiet. intros i. apply (ask_cost (JRight i)).
  - apply misused_loose. assumption.
  - apply misused_loose. assumption.
  - intros t _. apply asks_ret. exact Logic.I.
Qed.
Lemma ask_tt_few {E : Env} {K V R} (m right : trie K V) st wb wl (wr : tway R) : misused m -> misused right -> few m right (ask_tt st wb wl wr m right).
Proof.
  intros Hm Hr. apply few_intro; [assumption..|]. unfold ask_tt. eapply asks_then; [eapply am_tt_asks with (d0 := 0)|reflexivity|reflexivity|].
  - apply (ask_cost JDefault).
  - intros a b. apply (ask_cost (JReduce a b)).
  - intros k. apply (ask_cost (JKey k)).
  - intros v. apply (ask_cost (JValue v)).
  - apply jkeyed_priced.
  - apply jw_quiet. intros i j. apply (ask_cost (JBoth i j)).
  - apply tw_quiet. intros i. apply (ask_cost (JLeft i)).
  - apply tw_quiet. intros i. apply (ask_cost (JRight i)).
  - apply misused_loose. assumption.
  - apply misused_loose. assumption.
  - intros t _. apply asks_ret. exact Logic.I.
Qed.
