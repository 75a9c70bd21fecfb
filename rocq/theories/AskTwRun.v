(** With a client whose code consists of functions, AskTw.v is JointT.v. *)
From Coq Require Import NArith Arith List Bool Lia.
From Verif Require Import Base Words Flag Bia BiaP Node Inv Api Trans Transform Joint JointT Profile Eff EffP EffTP EffApi EffJ EffJRun Ask AskT AskTRun AskJ AskJRun AskTw.
Import ListNotations.
Open Scope N_scope.

Section Traverse.
Context {E : Env} {Q : Type} {A : Q -> Type} {K V R T : Type} {KK : Key K}.
Context (f : forall q, A q).
Context (def : prog A R) (rdef : R) (red : R -> R -> prog A R) (rd : R -> R -> R) (Hdef : run f def = Ret rdef) (Hred : forall a b, run f (red a b) = Ret (rd a b)).
Context (add : acc K V R -> N -> option (mnode K V) -> option (mnode K V) -> T -> prog A (acc K V R)).
Context (add' : acc K V R -> N -> option (mnode K V) -> option (mnode K V) -> T -> outcome (acc K V R)).
Context (lone : mnode K V -> prog A T) (rone : mnode K V -> prog A T) (done : acc K V R -> outcome T).
Context (lone' : mnode K V -> outcome T) (rone' : mnode K V -> outcome T).
Context (leaf : lnext K V -> lnext K V -> N -> prog A T) (leaf' : lnext K V -> lnext K V -> N -> outcome T).
Context (Hadd : forall a i l r t, run f (add a i l r t) = add' a i l r t).
Context (Hlone : forall n, run f (lone n) = lone' n) (Hrone : forall n, run f (rone n) = rone' n)
  (Hleaf : forall a b d, run f (leaf a b d) = leaf' a b d).
Context (tree_leaf : lnext K V -> mnode K V -> N -> prog A T) (leaf_tree : lnext K V -> mnode K V -> N -> prog A T).
Context (tree_leaf' : lnext K V -> mnode K V -> N -> outcome T) (leaf_tree' : lnext K V -> mnode K V -> N -> outcome T).
Context (Htl : forall r n d, run f (tree_leaf r n d) = tree_leaf' r n d)
  (Hlt : forall n r d, run f (leaf_tree n r d) = leaf_tree' n r d).
Context (short : option T) (st : strategy).

Ltac go := cbn [bind]; rewrite ?run_bind, ?run_lift; cbn [bind]; try reflexivity; try apply Hadd.

Lemma atw_joint_run n : forall right d,
  run f (atw_joint def red add lone rone done leaf tree_leaf leaf_tree short st n right d) =
  m_joint rdef rd add' lone' rone' done leaf' tree_leaf' leaf_tree' short st n right d.
Proof.
  induction n as [bits values x IH|l|s] using mnode_ind'; intros right d; cbn [atw_joint m_joint].
  - destruct right as [rb|r|r]; [|apply Htl..]. destruct short as [t|]; [reflexivity|].
    set (M := atw_joint def red add lone rone done leaf tree_leaf leaf_tree None st) in *.
    set (M' := m_joint rdef rd add' lone' rone' done leaf' tree_leaf' leaf_tree' None st) in *.
    rewrite run_bind.
    rewrite (arun_run f def red rdef rd Hdef Hred _ (cc_step add' lone' rone' (BIA bits (map (fun c => (c, fun r => M' c r (d + 1))) values) x) rb)).
    { destruct (run_loop _ _ _ _) as [a| |]; cbn [bind]; try reflexivity. apply run_lift. }
    intros a i. unfold acc_step, cc_step. rewrite run_bind, run_lift.
    destruct (bat_bit_index_child (fun c => (c, fun r => M c r (d + 1))) (fun c => (c, fun r => M' c r (d + 1))) bits values x i)
      as [(c & Hc & -> & ->)|[(e & -> & ->)|[[-> ->]|[-> ->]]]]; cbn [bind]; try reflexivity; go;
      destruct (bat_bit_index fw rb i) as [[r|e']| |]; cbn [bind]; try reflexivity; go.
    + rewrite Forall_forall in IH. rewrite (IH c Hc). destruct (M' c r (d + 1)); go.
    + rewrite Hlone. destruct (lone' c); go.
    + rewrite Hrone. destruct (rone' r); go.
  - destruct right; [apply Hlt|apply Hleaf..].
  - destruct right; [apply Hlt|apply Hleaf..].
Qed.
End Traverse.

Section TT.
Context {E : Env} {Q : Type} {A : Q -> Type} {K V R : Type} {KK : Key K}.
Context (f : forall q, A q) (red : R -> R -> prog A R) (rd : R -> R -> R) (Hred : forall a b, run f (red a b) = Ret (rd a b)).
Context (ck : K -> prog A K) (cv : V -> prog A V) (Hck : forall k, run f (ck k) = Ret k) (Hcv : forall v, run f (cv v) = Ret v).

Section Ops.
Context (ky : keyed A K K) (HK : kysame f ky).
Context (both : ejoint A (K * V) V R) (lop rop : etransform A (K * V) V R).
Context (both' : joint_op (K * V) V R) (lop' rop' : transform_op (K * V) V R).
Context (HB : jsame f both both') (HL : tsame f lop lop') (HR : tsame f rop rop').

Ltac go := repeat (rewrite ?run_bind, ?run_lift, ?Hred, ?Hck, ?Hcv, ?(ks_eq _ _ HK), ?(ejcall_run _ _ _ _ _ HB), ?(etcall_run _ _ _ _ HL), ?(etcall_run _ _ _ _ HR),
  ?(an_transform_run f red rd Hred ck cv Hck Hcv _ _ _ HL), ?(an_transform_run f red rd Hred ck cv Hck Hcv _ _ _ HR), ?(apair_run f red rd Hred),
  ?(as_transform_run f ck Hck _ _ HL); cbn [bind run]); try reflexivity.

Lemma att_apart_run a b h h' d : proj1_sig h = hashk (next_key a) -> proj1_sig h' = hashk (next_key b) ->
  run f (att_apart red ck cv lop rop a b h h' d) = tt_apart rd lop' rop' a b d.
Proof.
  intros H1 H2. unfold att_apart, tt_apart. go. rewrite (aflags_two (next_key a) (next_key b)) by assumption.
  destruct (two_flags _ _ _) as [[lf rf]| |]; cbn [bind]; try reflexivity.
  destruct (tout (next_mnode a) (n_transform rd lop' a)) as [x|], (tout (next_mnode b) (n_transform rd rop' b)) as [y|]; go. destruct (cnode_lift x lf y rf); reflexivity.
Qed.
Lemma att_s_impl_run s e : run f (att_s_impl red ck cv ky both lop rop s e) = Ret (tt_s_impl rd both' lop' rop' s e).
Proof.
  unfold att_s_impl, tt_s_impl. go. destruct (keqb _ _); go.
  - destruct (jcall both' _ _); go.
  - destruct (tcall lop' _), (tcall rop' _); go.
Qed.
Lemma att_that_run that : run f (att_that ck cv that) = unwrap that.
Proof. unfold att_that. destruct that as [[k v]|]; [|reflexivity]. cbn [unwrap lift]. go. Qed.
Lemma att_two_run this that x y : run f (att_two red ck cv this that x y) =
  let* e := unwrap that in Ret (JN (NRL (l_new (l_key this) (l_value this) (NS (SN (fst e) (snd e)))) (rd x y))).
Proof. unfold att_two. go. rewrite att_that_run. destruct that as [e|]; cbn [unwrap bind]; go. Qed.
Lemma ajj_run this o that next : run f (ajj red ck cv this o that next) = jj rd this o that next.
Proof.
  destruct o, next as [| | |[]]; cbn [ajj jj jred nred]; rewrite ?att_two_run; go; rewrite ?att_that_run; destruct that as [e|]; cbn [unwrap bind]; go.
Qed.
Lemma ajt_run this o that next : run f (ajt red ck cv this o that next) = Ret (jt rd this o that next).
Proof. destruct o, next as [|[]]; cbn [ajt jt tred nred]; go. Qed.
Lemma atj_run this o that next : run f (atj red ck cv this o that next) = Ret (tj rd this o that next).
Proof. destruct o, next as [| | |[]]; cbn [atj tj jred nred]; go. Qed.
Lemma att_take k (rights : list (K * V)) : run f (atake_key (ky_eq ky k) rights) = Ret (take_key k rights).
Proof. apply atake_run. intros l. apply (ks_eq _ _ HK). Qed.
Lemma att_l_tail this rights that next : run f
  (let+ o := atake_key (ky_eq ky (l_key this)) rights in
   let+ (result, rights) :=
     match o with
     | Some (e, rights) => let+ o := ejcall both (l_key this, l_value this) e in PRet (o, rights)
     | None => let+ o := etcall lop (l_key this, l_value this) in PRet (v_left o, rights)
     end in
   let+ t := ajj red ck cv this result that next in PRet (t, rights)) =
  (let (result, rights) :=
     match take_key (l_key this) rights with
     | Some (e, rights) => (jcall both' (l_key this, l_value this) e, rights)
     | None => (v_left (tcall lop' (l_key this, l_value this)), rights)
     end in
   let* t := jj rd this result that next in Ret (t, rights)).
Proof.
  rewrite run_bind, att_take. cbn [bind]. destruct (take_key (l_key this) rights) as [[e rest]|]; go; rewrite ajj_run; destruct (jj rd this _ that next); reflexivity.
Qed.
Lemma att_l_impl_run l : forall rights, run f (att_l_impl red ck cv ky both lop rop l rights) = tt_l_impl rd both' lop' rop' l rights.
Proof.
  induction l as [k v n IH z|k v s z]; intros rights; cbn [att_l_impl tt_l_impl]; rewrite run_bind.
  - rewrite run_bind, IH. destruct (tt_l_impl rd both' lop' rop' n rights) as [[next rest]| |]; cbn [bind run]; try reflexivity. apply att_l_tail.
  - rewrite run_bind, att_take. cbn [bind]. destruct (take_key (s_key s) rights) as [[e rest]|].
    + go. rewrite att_s_impl_run. cbn [bind run]. apply (att_l_tail (LNS k v s z)).
    + go. rewrite <- (att_l_tail (LNS k v s z)), run_bind. reflexivity.
Qed.
Lemma att_rest_run l rights : forall next, run f (att_rest red ck cv rop l rights next) = tt_rest rd rop' l rights next.
Proof.
  induction rights as [|e rights IH]; intros next; cbn [att_rest tt_rest]; [reflexivity|]. go.
  destruct (tcall rop' e), next; go; apply IH.
Qed.
Lemma att_lnode_run l r d : run f (att_lnode red ck cv ky both lop rop l r d) = tt_lnode rd both' lop' rop' l r d.
Proof.
  unfold att_lnode, tt_lnode. apply (hashes_run f ky HK). intros h h' H H'. unfold same_hash. rewrite H, H'.
  destruct (_ =? _); [|apply att_apart_run; assumption]. rewrite run_bind, run_lift.
  destruct (rights_loop _ _ _ _) as [rights| |]; cbn [bind]; try reflexivity. rewrite run_bind, att_l_impl_run.
  destruct (tt_l_impl rd both' lop' rop' l rights) as [[next rest]| |]; cbn [bind]; try reflexivity. apply att_rest_run.
Qed.
Lemma att_ls_impl_run l s : run f (att_ls_impl red ck cv ky both lop rop l s) = Ret (tt_ls_impl rd both' lop' rop' l s).
Proof.
  induction l as [k v n IH z|k v s' z]; cbn [att_ls_impl tt_ls_impl l_key l_value]; rewrite run_bind, (ks_eq _ _ HK); cbn [bind]; destruct (keqb _ _); go; rewrite ?ajt_run; try reflexivity.
  - rewrite IH. cbn [bind]. go. apply atj_run.
  - rewrite att_s_impl_run. cbn [bind]. go. apply atj_run.
Qed.
Lemma att_lsnode_run l s d : run f (att_lsnode red ck cv ky both lop rop l s d) = tt_lsnode rd both' lop' rop' l s d.
Proof.
  unfold att_lsnode, tt_lsnode. apply (hashes_run f ky HK). intros h h' H H'. unfold same_hash. rewrite H, H'.
  destruct (_ =? _); [apply att_ls_impl_run|apply att_apart_run; assumption].
Qed.
Lemma att_snode_run s s' d : run f (att_snode red ck cv ky both lop rop s s' d) = tt_snode rd both' lop' rop' s s' d.
Proof.
  unfold att_snode, tt_snode. apply (hashes_run f ky HK). intros h h' H H'. unfold same_hash. rewrite H, H'.
  destruct (_ =? _); [apply att_s_impl_run|apply att_apart_run; assumption].
Qed.
Lemma att_short_run : att_short both lop rop = tt_short both' lop' rop'.
Proof. destruct both, both'; cbn in HB; try contradiction; subst; try reflexivity; destruct lop, lop'; cbn in HL; try contradiction; subst; try reflexivity; destruct rop, rop'; cbn in HR; try contradiction; subst; reflexivity. Qed.
End Ops.

Lemma att_add_run (a : acc K V R) i l (r : option (mnode K V)) t : run f (att_add red a i l r t) = tt_add rd a i l r t.
Proof.
  unfold att_add, tt_add. destruct t as [z|z|z|n].
  - rewrite run_bind, run_lift. destruct (unwrap l); cbn [bind]; try reflexivity. apply (apush_run f red rd Hred).
  - rewrite run_bind, run_lift. destruct (unwrap l); cbn [bind]; try reflexivity. rewrite run_bind, (apush_run f red rd Hred). destruct (push _ _ _ _ _ _); reflexivity.
  - rewrite run_bind, run_lift. destruct (unwrap r); cbn [bind]; try reflexivity. rewrite run_bind, (apush_run f red rd Hred). destruct (push _ _ _ _ _ _); reflexivity.
  - rewrite run_bind, (apush_new_run f red rd Hred). destruct (push_new _ _ _ _); reflexivity.
Qed.

Context (def : prog A R) (rdef : R) (Hdef : run f def = Ret rdef) (st : strategy).
Lemma att_lone_run lop lop' n : tsame f lop lop' -> run f (att_lone def red ck cv st lop n) = tt_lone rdef rd st lop' n.
Proof. intros HL. unfold att_lone, tt_lone. rewrite run_bind, (am_transform_run f def red ck cv rdef rd Hdef Hred Hck Hcv _ _ HL). destruct (m_transform rdef rd st lop' n); reflexivity. Qed.
Lemma att_rone_run rop rop' n : tsame f rop rop' -> run f (att_rone def red ck cv st rop n) = tt_rone rdef rd st rop' n.
Proof. intros HL. unfold att_rone, tt_rone. rewrite run_bind, (am_transform_run f def red ck cv rdef rd Hdef Hred Hck Hcv _ _ HL). destruct (m_transform rdef rd st rop' n); reflexivity. Qed.

Lemma att_leaf_run ky both lop rop both' lop' rop' : kysame f ky -> jsame f both both' -> tsame f lop lop' -> tsame f rop rop' ->
  forall a b d, run f (att_leaf red ck cv ky both lop rop a b d) = tt_leaf rd both' lop' rop' a b d.
Proof.
  intros HK HB HL HR [l|s] [r|t] d; cbn [att_leaf tt_leaf].
  - apply att_lnode_run; assumption.
  - apply att_lsnode_run; assumption.
  - rewrite run_bind, (att_lsnode_run (ky_flip ky) (ks_flip _ _ HK) (ejflip both) rop lop (jflip both') rop' lop'); [|apply jsame_flip| |]; try assumption.
    destruct (tt_lsnode _ _ _ _ _ _ _); reflexivity.
  - apply att_snode_run; assumption.
Qed.
Lemma att_tree_leaf_run ky both lop rop both' lop' rop' : kysame f ky -> jsame f both both' -> tsame f lop lop' -> tsame f rop rop' ->
  forall r n d, run f (att_tree_leaf def red ck cv ky st both lop rop r n d) = tt_tree_leaf rdef rd st both' lop' rop' r n d.
Proof.
  intros HK HB HL HR r n d. apply am_leaf_run.
  - exact Hdef.
  - intros. apply att_add_run.
  - intros. apply att_lone_run. assumption.
  - intros. apply att_rone_run. assumption.
  - apply (ks_hash' _ _ HK).
  - apply att_leaf_run; assumption.
Qed.
Lemma am_tt_run ky both lop rop both' lop' rop' : kysame f ky -> jsame f both both' -> tsame f lop lop' -> tsame f rop rop' ->
  forall m r d, run f (am_tt def red ck cv ky st both lop rop m r d) = m_tt rdef rd st both' lop' rop' m r d.
Proof.
  intros HK HB HL HR m r d. unfold am_tt, m_tt. rewrite (att_short_run both lop rop both' lop' rop') by assumption. apply atw_joint_run.
  - exact Hdef.
  - exact Hred.
  - intros. apply att_add_run.
  - intros. apply att_lone_run. assumption.
  - intros. apply att_rone_run. assumption.
  - apply att_leaf_run; assumption.
  - apply att_tree_leaf_run; assumption.
  - intros l n d'. unfold att_leaf_tree, tt_leaf_tree. rewrite run_bind.
    rewrite (att_tree_leaf_run (ky_flip ky) (ejflip both) rop lop (jflip both') rop' lop'); [|apply ks_flip|apply jsame_flip| |]; try assumption.
    destruct (tt_tree_leaf _ _ _ _ _ _ _ _ _); reflexivity.
Qed.
End TT.

Lemma ask_tt_run {E : Env} {K V R} {KK : Key K} (rdef : R) (rd : R -> R -> R) gb gl gr st wb wl wr (m right : trie K V) :
  run (jfunctions rdef rd gb gl gr) (ask_tt st wb wl wr m right) = map_tt rdef rd st (jw_fun wb (fun x y => gb (x, y))) (tw_fun wl gl) (tw_fun wr gr) m right.
Proof.
  unfold ask_tt, map_tt. rewrite run_bind.
  rewrite (am_tt_run (jfunctions rdef rd gb gl gr)) with (rd := rd) (rdef := rdef) (both' := jw_fun wb (fun x y => gb (x, y))) (lop' := tw_fun wl gl) (rop' := tw_fun wr gr).
  - destruct (m_tt rdef rd st _ _ _ m right 0) as [[]| |]; reflexivity.
  - reflexivity.
  - reflexivity.
  - reflexivity.
  - reflexivity.
  - apply jkeyed_same.
  - destruct wb; cbn; auto.
  - apply tw_same. reflexivity.
  - apply tw_same. reflexivity.
Qed.
