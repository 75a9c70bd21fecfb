(** The joint operations, run with functions for closures, are those of Joint.v
    and JointT.v. *)
From Coq Require Import NArith Arith List Bool Lia.
From Verif Require Import Base Words Flag Bia BiaP Node Inv Api Trans Transform Joint JointT Profile Eff EffT EffJ EffP EffTP.
Import ListNotations.
Open Scope N_scope.

Section Traverse.
Context {E : Env} {Q : Type} {A : Q -> Type} {K V L W S X R T : Type} {KL : Key L}.
Context (f : forall q, A q).
Context (rdef : R) (rd : R -> R -> R).
Context (add : acc S X R -> N -> option (mnode K V) -> option (mnode L W) -> T -> outcome (acc S X R)).
Context (lone : mnode K V -> prog A T) (rone : mnode L W -> prog A T) (done : acc S X R -> outcome T).
Context (lone' : mnode K V -> outcome T) (rone' : mnode L W -> outcome T).
Context (leaf : lnext K V -> lnext L W -> N -> prog A T) (leaf' : lnext K V -> lnext L W -> N -> outcome T).
Context (Hlone : forall n, run f (lone n) = lone' n) (Hrone : forall n, run f (rone n) = rone' n)
  (Hleaf : forall a b d, run f (leaf a b d) = leaf' a b d).

Ltac go := cbn [bind]; rewrite ?run_bind, ?run_lift; cbn [bind]; try reflexivity.

Lemma em_leaf_run right n : forall d,
  run f (em_leaf rdef add lone rone done leaf right n d) = m_leaf rdef add lone' rone' done leaf' right n d.
Proof.
  induction n as [bits values x IH|l|s] using mnode_ind'; intros d; cbn [em_leaf m_leaf]; [|apply Hleaf..].
  rewrite run_bind, run_lift. destruct (flag_new_at_depth _ d) as [[flag|]| |]; cbn [bind unwrap]; try reflexivity.
  rewrite run_bind.
  rewrite (run_eloop f _ (cl_step add lone' rone' (fl_flag flag) (next_mnode right) d
     (BIA bits (map (fun c => (c, m_leaf rdef add lone' rone' done leaf' right c)) values) x))).
  { destruct (loop _ _ _) as [a| |]; cbn [bind]; try reflexivity. apply run_lift. }
  intros a i. unfold ecl_step, cl_step. rewrite run_bind, run_lift.
  destruct (bat_bit_index_child (fun c => (c, em_leaf rdef add lone rone done leaf right c))
    (fun c => (c, m_leaf rdef add lone' rone' done leaf' right c)) bits values x i)
    as [(c & Hc & -> & ->)|[(e & -> & ->)|[[-> ->]|[-> ->]]]]; cbn [bind]; try reflexivity; go;
    destruct (unwrap_ok (nth_bit fw i)) as [bit| |]; cbn [bind]; try reflexivity; destruct (fl_flag flag =? bit); go.
  - rewrite Forall_forall in IH. rewrite (IH c Hc). destruct (m_leaf rdef add lone' rone' done leaf' right c (d + 1)); go.
  - rewrite Hlone. destruct (lone' c); go.
  - rewrite Hrone. destruct (rone' (next_mnode right)); go.
Qed.

Context (tree_leaf : lnext L W -> mnode K V -> N -> prog A T) (leaf_tree : lnext K V -> mnode L W -> N -> prog A T).
Context (tree_leaf' : lnext L W -> mnode K V -> N -> outcome T) (leaf_tree' : lnext K V -> mnode L W -> N -> outcome T).
Context (Htl : forall r n d, run f (tree_leaf r n d) = tree_leaf' r n d)
  (Hlt : forall n r d, run f (leaf_tree n r d) = leaf_tree' n r d).
Context (short : option T) (st : strategy).

Lemma em_joint_run n : forall right d,
  run f (em_joint rdef rd add lone rone done leaf tree_leaf leaf_tree short st n right d) =
  m_joint rdef rd add lone' rone' done leaf' tree_leaf' leaf_tree' short st n right d.
Proof.
  induction n as [bits values x IH|l|s] using mnode_ind'; intros right d; cbn [em_joint m_joint].
  - destruct right as [rb|r|r]; [|apply Htl..]. destruct short as [t|]; [reflexivity|].
    set (M := em_joint rdef rd add lone rone done leaf tree_leaf leaf_tree None st) in *.
    set (M' := m_joint rdef rd add lone' rone' done leaf' tree_leaf' leaf_tree' None st) in *.
    rewrite run_bind.
    rewrite (run_erun_loop rdef rd f st _ (cc_step add lone' rone' (BIA bits (map (fun c => (c, fun r => M' c r (d + 1))) values) x) rb)).
    { destruct (run_loop rdef rd st _) as [a| |]; cbn [bind]; try reflexivity. apply run_lift. }
    intros a i. unfold ecc_step, cc_step. rewrite run_bind, run_lift.
    destruct (bat_bit_index_child (fun c => (c, fun r => M c r (d + 1))) (fun c => (c, fun r => M' c r (d + 1))) bits values x i)
      as [(c & Hc & -> & ->)|[(e & -> & ->)|[[-> ->]|[-> ->]]]]; cbn [bind]; try reflexivity; go;
      destruct (bat_bit_index fw rb i) as [[r|e']| |]; cbn [bind]; try reflexivity; go.
    + rewrite Forall_forall in IH. rewrite (IH c Hc). destruct (M' c r (d + 1)); go.
    + rewrite Hlone. destruct (lone' c); go.
    + rewrite Hrone. destruct (rone' r); go.
  - destruct right; [apply Hlt|apply Hleaf..].
  - destruct right; [apply Hlt|apply Hleaf..].
Qed.

End Traverse.

Section Next.
Context {E : Env} {Q : Type} {A : Q -> Type} {K V R : Type}.
Context (f : forall q, A q) (rd : R -> R -> R).

Lemma en_transform_run (op : etransform A (K * V) V R) op' n : tsame f op op' -> run f (en_transform rd op n) = Ret (n_transform rd op' n).
Proof. intros H. destruct n; [apply el_transform_run|apply es_transform_run]; assumption. Qed.
Lemma en_transmute_run {S X} (op : etransmute A (K * V) S X R) op' n : msame f op op' -> run f (en_transmute rd op n) = Ret (n_transmute rd op' n).
Proof. intros H. destruct n; [apply el_transmute_run|apply es_transmute_run]; assumption. Qed.

End Next.

(** * Families *)
Section TM.
Context {E : Env} {Q : Type} {A : Q -> Type} {K V L W R : Type} {KK : Key K} {KL : Key L}.
Context (f : forall q, A q) (rdef : R) (rd : R -> R -> R).
Context (both : etransform A ((K * V) * (L * W)) V R) (lop : etransform A (K * V) V R) (rop : etransmute A (L * W) K V R).
Context (both' : transform_op ((K * V) * (L * W)) V R) (lop' : transform_op (K * V) V R) (rop' : transmute_op (L * W) K V R).
Context (HB : tsame f both both') (HL : tsame f lop lop') (HR : msame f rop rop').

Ltac go := repeat (rewrite ?run_bind, ?run_lift, ?(etcall_run _ _ _ _ HB), ?(etcall_run _ _ _ _ HL), ?(emcall_run _ _ _ _ HR),
  ?(en_transform_run _ _ _ _ _ HL), ?(en_transmute_run _ _ _ _ _ HR), ?(es_transform_run _ _ _ HL); cbn [bind run]); try reflexivity.

Lemma etm_apart_run a b d : run f (etm_apart rd lop rop a b d) = tm_apart rd lop' rop' a b d.
Proof. unfold etm_apart, tm_apart. go. Qed.
Lemma etm_s_impl_run s e : run f (etm_s_impl rd both lop rop s e) = Ret (tm_s_impl rd both' lop' rop' s e).
Proof. unfold etm_s_impl, tm_s_impl. destruct (keqb _ _); go. Qed.
Lemma etm_l_impl_run l : forall rights, run f (etm_l_impl rd both lop rop l rights) = Ret (tm_l_impl rd both' lop' rop' l rights).
Proof.
  induction l as [k v n IH z|k v s z]; intros rights; cbn [etm_l_impl tm_l_impl l_key l_value]; rewrite run_bind.
  - rewrite IH. cbn [bind]. destruct (tm_l_impl rd both' lop' rop' n rights) as [next rest].
    destruct (take_key k rest) as [[e rest']|]; go.
  - destruct (take_key (s_key s) rights) as [[e rest]|].
    + go. rewrite etm_s_impl_run. cbn [bind run]. destruct (take_key k rest) as [[e' rest']|]; go.
    + go. destruct (take_key k rights) as [[e' rest']|]; go.
Qed.
Lemma etm_rest_run l rights : forall next, run f (etm_rest rd rop l rights next) = Ret (tm_rest rd rop' l rights next).
Proof. induction rights as [|e rights IH]; intros next; cbn [etm_rest tm_rest]; [reflexivity|]. go. apply IH. Qed.
Lemma etm_lnode_run l r d : run f (etm_lnode rd both lop rop l r d) = tm_lnode rd both' lop' rop' l r d.
Proof.
  unfold etm_lnode, tm_lnode. destruct (_ =? _); [|apply etm_apart_run]. rewrite run_bind, run_lift.
  destruct (rights_loop _ _ _ _) as [rights| |]; cbn [bind]; try reflexivity. rewrite run_bind, etm_l_impl_run. cbn [bind].
  destruct (tm_l_impl rd both' lop' rop' l rights) as [next rest]. apply etm_rest_run.
Qed.
Lemma etm_ls_impl_run l s : run f (etm_ls_impl rd both lop rop l s) = Ret (tm_ls_impl rd both' lop' rop' l s).
Proof.
  induction l as [k v n IH z|k v s' z]; cbn [etm_ls_impl tm_ls_impl l_key l_value]; destruct (keqb _ _); go.
  - rewrite IH. cbn [bind]. go.
  - rewrite etm_s_impl_run. cbn [bind]. go.
Qed.
Lemma etm_lsnode_run l s d : run f (etm_lsnode rd both lop rop l s d) = tm_lsnode rd both' lop' rop' l s d.
Proof. unfold etm_lsnode, tm_lsnode. destruct (_ =? _); [apply etm_ls_impl_run|apply etm_apart_run]. Qed.
Lemma etm_snode_run s s' d : run f (etm_snode rd both lop rop s s' d) = tm_snode rd both' lop' rop' s s' d.
Proof. unfold etm_snode, tm_snode. destruct (_ =? _); [apply etm_s_impl_run|apply etm_apart_run]. Qed.

Lemma etm_lone_run st n : run f (etm_lone rdef rd st lop n) = tm_lone rdef rd st lop' n.
Proof. apply em_transform_run. assumption. Qed.
Lemma etm_rone_run n : run f (etm_rone rdef rd rop n) = tm_rone rdef rd rop' n.
Proof. unfold etm_rone, tm_rone. rewrite run_bind, (em_transmute_run _ _ _ _ _ HR). destruct (m_transmute rdef rd rop' n); reflexivity. Qed.

End TM.

Section MT.
Context {E : Env} {Q : Type} {A : Q -> Type} {K V L W R : Type} {KK : Key K} {KL : Key L}.
Context (f : forall q, A q) (rdef : R) (rd : R -> R -> R).
Context (both : etransform A ((K * V) * (L * W)) W R) (lop : etransmute A (K * V) L W R) (rop : etransform A (L * W) W R).
Context (both' : transform_op ((K * V) * (L * W)) W R) (lop' : transmute_op (K * V) L W R) (rop' : transform_op (L * W) W R).
Context (HB : tsame f both both') (HL : msame f lop lop') (HR : tsame f rop rop').

Ltac go := repeat (rewrite ?run_bind, ?run_lift, ?(etcall_run _ _ _ _ HB), ?(emcall_run _ _ _ _ HL), ?(etcall_run _ _ _ _ HR),
  ?(en_transform_run _ _ _ _ _ HR), ?(en_transmute_run _ _ _ _ _ HL); cbn [bind run]); try reflexivity.

Lemma emt_apart_run a b d : run f (emt_apart rd lop rop a b d) = mt_apart rd lop' rop' a b d.
Proof. unfold emt_apart, mt_apart. go. Qed.
Lemma emt_s_impl_run s e : run f (emt_s_impl rd both lop rop s e) = Ret (mt_s_impl rd both' lop' rop' s e).
Proof. unfold emt_s_impl, mt_s_impl. destruct (keqb _ _); go. Qed.
Lemma emt_ls_impl_run l s : run f (emt_ls_impl rd both lop rop l s) = Ret (mt_ls_impl rd both' lop' rop' l s).
Proof.
  induction l as [k v n IH z|k v s' z]; cbn [emt_ls_impl mt_ls_impl l_key l_value]; destruct (keqb _ _); go.
  - rewrite IH. cbn [bind]. go.
  - rewrite emt_s_impl_run. cbn [bind]. go.
Qed.
Lemma emt_lsnode_run l s d : run f (emt_lsnode rd both lop rop l s d) = mt_lsnode rd both' lop' rop' l s d.
Proof. unfold emt_lsnode, mt_lsnode. destruct (_ =? _); [apply emt_ls_impl_run|apply emt_apart_run]. Qed.
Lemma emt_snode_run s s' d : run f (emt_snode rd both lop rop s s' d) = mt_snode rd both' lop' rop' s s' d.
Proof. unfold emt_snode, mt_snode. destruct (_ =? _); [apply emt_s_impl_run|apply emt_apart_run]. Qed.

Lemma emt_lone_run n : run f (emt_lone rdef rd lop n) = mt_lone rdef rd lop' n.
Proof. unfold emt_lone, mt_lone. rewrite run_bind, (em_transmute_run _ _ _ _ _ HL). destruct (m_transmute rdef rd lop' n); reflexivity. Qed.
Lemma emt_rone_run st n : run f (emt_rone rdef rd st rop n) = mt_rone rdef rd st rop' n.
Proof. apply em_transform_run. assumption. Qed.

End MT.

Section MM.
Context {E : Env} {Q : Type} {A : Q -> Type} {K V L W S X R : Type} {KK : Key K} {KL : Key L}.
Context (f : forall q, A q) (rdef : R) (rd : R -> R -> R).
Context (both : etransmute A ((K * V) * (L * W)) S X R) (lop : etransmute A (K * V) S X R) (rop : etransmute A (L * W) S X R).
Context (both' : transmute_op ((K * V) * (L * W)) S X R) (lop' : transmute_op (K * V) S X R) (rop' : transmute_op (L * W) S X R).
Context (HB : msame f both both') (HL : msame f lop lop') (HR : msame f rop rop').

Ltac go := repeat (rewrite ?run_bind, ?run_lift, ?(emcall_run _ _ _ _ HB), ?(emcall_run _ _ _ _ HL), ?(emcall_run _ _ _ _ HR),
  ?(en_transmute_run _ _ _ _ _ HR), ?(en_transmute_run _ _ _ _ _ HL), ?(es_transmute_run _ _ _ HL); cbn [bind run]); try reflexivity.

Lemma emm_apart_run a b d : run f (emm_apart rd lop rop a b d) = mm_apart rd lop' rop' a b d.
Proof. unfold emm_apart, mm_apart. go. Qed.
Lemma emm_values_run e e' : run f (emm_values rd both lop rop e e') = Ret (mm_values rd both' lop' rop' e e').
Proof. unfold emm_values, mm_values. destruct (keqb _ _); go. Qed.
Lemma emm_l_impl_run l : forall rights, run f (emm_l_impl rd both lop rop l rights) = Ret (mm_l_impl rd both' lop' rop' l rights).
Proof.
  induction l as [k v n IH z|k v s z]; intros rights; cbn [emm_l_impl mm_l_impl l_key l_value]; rewrite run_bind.
  - rewrite IH. cbn [bind]. destruct (mm_l_impl rd both' lop' rop' n rights) as [next rest].
    destruct (take_key k rest) as [[e rest']|]; go.
  - destruct (take_key (s_key s) rights) as [[e rest]|].
    + go. rewrite emm_values_run. cbn [bind run]. destruct (take_key k rest) as [[e' rest']|]; go.
    + go. destruct (take_key k rights) as [[e' rest']|]; go.
Qed.
Lemma emm_rest_run rights : forall next, run f (emm_rest rd rop rights next) = Ret (mm_rest rd rop' rights next).
Proof. induction rights as [|e rights IH]; intros next; cbn [emm_rest mm_rest]; [reflexivity|]. go. apply IH. Qed.
Lemma emm_lnode_run l r d : run f (emm_lnode rd both lop rop l r d) = mm_lnode rd both' lop' rop' l r d.
Proof.
  unfold emm_lnode, mm_lnode. destruct (_ =? _); [|apply emm_apart_run]. rewrite run_bind, run_lift.
  destruct (rights_loop _ _ _ _) as [rights| |]; cbn [bind]; try reflexivity. rewrite run_bind, emm_l_impl_run. cbn [bind].
  destruct (mm_l_impl rd both' lop' rop' l rights) as [next rest]. apply emm_rest_run.
Qed.
Lemma emm_ls_impl_run l s : run f (emm_ls_impl rd both lop rop l s) = Ret (mm_ls_impl rd both' lop' rop' l s).
Proof.
  induction l as [k v n IH z|k v s' z]; cbn [emm_ls_impl mm_ls_impl l_key l_value]; destruct (keqb _ _); go.
  - rewrite IH. cbn [bind]. go.
  - rewrite emm_values_run. cbn [bind]. go.
Qed.
Lemma emm_lsnode_run l s d : run f (emm_lsnode rd both lop rop l s d) = mm_lsnode rd both' lop' rop' l s d.
Proof. unfold emm_lsnode, mm_lsnode. destruct (_ =? _); [apply emm_ls_impl_run|apply emm_apart_run]. Qed.
Lemma emm_snode_run s s' d : run f (emm_snode rd both lop rop s s' d) = mm_snode rd both' lop' rop' s s' d.
Proof. unfold emm_snode, mm_snode. destruct (_ =? _); [apply emm_values_run|apply emm_apart_run]. Qed.

End MM.

Section TT.
Context {E : Env} {Q : Type} {A : Q -> Type} {K V R : Type} {KK : Key K}.
Context (f : forall q, A q) (rdef : R) (rd : R -> R -> R).
Context (both : ejoint A (K * V) V R) (lop rop : etransform A (K * V) V R).
Context (both' : joint_op (K * V) V R) (lop' rop' : transform_op (K * V) V R).
Context (HB : jsame f both both') (HL : tsame f lop lop') (HR : tsame f rop rop').

Ltac go := repeat (rewrite ?run_bind, ?run_lift, ?(ejcall_run _ _ _ _ _ HB), ?(etcall_run _ _ _ _ HL), ?(etcall_run _ _ _ _ HR),
  ?(en_transform_run _ _ _ _ _ HR), ?(en_transform_run _ _ _ _ _ HL), ?(es_transform_run _ _ _ HL); cbn [bind run]); try reflexivity.

Lemma ett_apart_run a b d : run f (ett_apart rd lop rop a b d) = tt_apart rd lop' rop' a b d.
Proof. unfold ett_apart, tt_apart. go. Qed.
Lemma ett_s_impl_run s e : run f (ett_s_impl rd both lop rop s e) = Ret (tt_s_impl rd both' lop' rop' s e).
Proof. unfold ett_s_impl, tt_s_impl. destruct (keqb _ _); go. Qed.
Lemma ett_l_impl_run l : forall rights, run f (ett_l_impl rd both lop rop l rights) = tt_l_impl rd both' lop' rop' l rights.
Proof.
  assert (HS : forall (this : lnode K V) k rights that next,
    run f (let+ (result, rights) :=
       match take_key k rights with
       | Some (e, rights) => let+ o := ejcall both (l_key this, l_value this) e in PRet (o, rights)
       | None => let+ o := etcall lop (l_key this, l_value this) in PRet (v_left o, rights)
       end in
     let+ t := lift (jj rd this result that next) in PRet (t, rights)) =
    (let (result, rights) :=
       match take_key k rights with
       | Some (e, rights) => (jcall both' (l_key this, l_value this) e, rights)
       | None => (v_left (tcall lop' (l_key this, l_value this)), rights)
       end in
     let* t := jj rd this result that next in Ret (t, rights))).
  { intros this k rights that next. rewrite run_bind. destruct (take_key k rights) as [[e rest]|]; go;
      destruct (jj _ _ _ _ _); reflexivity. }
  induction l as [k v n IH z|k v s z]; intros rights; cbn [ett_l_impl tt_l_impl l_key l_value]; rewrite run_bind.
  - rewrite run_bind, IH. destruct (tt_l_impl rd both' lop' rop' n rights) as [[next rest]| |]; cbn [bind]; try reflexivity.
    cbn [run bind]. apply (HS (LNL k v n z)).
  - destruct (take_key (s_key s) rights) as [[e rest]|].
    + rewrite run_bind, ett_s_impl_run. cbn [bind run]. apply (HS (LNS k v s z)).
    + rewrite run_bind, (es_transform_run _ _ _ HL). cbn [bind run]. apply (HS (LNS k v s z)).
Qed.
Lemma ett_rest_run l rights : forall next, run f (ett_rest rd rop l rights next) = tt_rest rd rop' l rights next.
Proof.
  induction rights as [|e rights IH]; intros next; cbn [ett_rest tt_rest]; [reflexivity|]. go.
  destruct (tcall rop' e), next; cbn [bind]; try reflexivity; apply IH.
Qed.
Lemma ett_lnode_run l r d : run f (ett_lnode rd both lop rop l r d) = tt_lnode rd both' lop' rop' l r d.
Proof.
  unfold ett_lnode, tt_lnode. destruct (_ =? _); [|apply ett_apart_run]. rewrite run_bind, run_lift.
  destruct (rights_loop _ _ _ _) as [rights| |]; cbn [bind]; try reflexivity. rewrite run_bind, ett_l_impl_run.
  destruct (tt_l_impl rd both' lop' rop' l rights) as [[next rest]| |]; cbn [bind]; try reflexivity. apply ett_rest_run.
Qed.
Lemma ett_ls_impl_run l s : run f (ett_ls_impl rd both lop rop l s) = Ret (tt_ls_impl rd both' lop' rop' l s).
Proof.
  induction l as [k v n IH z|k v s' z]; cbn [ett_ls_impl tt_ls_impl l_key l_value]; destruct (keqb _ _); go.
  - rewrite IH. cbn [bind]. go.
  - rewrite ett_s_impl_run. cbn [bind]. go.
Qed.
Lemma ett_lsnode_run l s d : run f (ett_lsnode rd both lop rop l s d) = tt_lsnode rd both' lop' rop' l s d.
Proof. unfold ett_lsnode, tt_lsnode. destruct (_ =? _); [apply ett_ls_impl_run|apply ett_apart_run]. Qed.
Lemma ett_snode_run s s' d : run f (ett_snode rd both lop rop s s' d) = tt_snode rd both' lop' rop' s s' d.
Proof. unfold ett_snode, tt_snode. destruct (_ =? _); [apply ett_s_impl_run|apply ett_apart_run]. Qed.

Lemma ett_lone_run st n : run f (ett_lone rdef rd st lop n) = tt_lone rdef rd st lop' n.
Proof. unfold ett_lone, tt_lone. rewrite run_bind, (em_transform_run _ _ _ _ _ HL). destruct (m_transform rdef rd st lop' n); reflexivity. Qed.
Lemma ett_rone_run st n : run f (ett_rone rdef rd st rop n) = tt_rone rdef rd st rop' n.
Proof. unfold ett_rone, tt_rone. rewrite run_bind, (em_transform_run _ _ _ _ _ HR). destruct (m_transform rdef rd st rop' n); reflexivity. Qed.
Lemma ett_short_same : ett_short both lop rop = tt_short both' lop' rop'.
Proof.
  unfold ett_short, tt_short. destruct both, both'; cbn in HB; try contradiction; subst; try reflexivity;
    destruct lop, lop'; cbn in HL; try contradiction; subst; try reflexivity;
    destruct rop, rop'; cbn in HR; try contradiction; subst; reflexivity.
Qed.

End TT.

(** * The maps *)
Section Maps.
Context {E : Env} {Q : Type} {A : Q -> Type} {K V L W R : Type} {KK : Key K} {KL : Key L}.
Context (f : forall q, A q) (rdef : R) (rd : R -> R -> R) (st : strategy).

Lemma etm_leaf_run both lop rop both' lop' rop' : tsame f both both' -> tsame f lop lop' -> msame f rop rop' ->
  forall (a : lnext K V) (b : lnext L W) d, run f (etm_leaf rd both lop rop a b d) = tm_leaf rd both' lop' rop' a b d.
Proof.
  intros HB HL HR [l|s] [r|s'] d; cbn [etm_leaf tm_leaf].
  - apply etm_lnode_run; assumption.
  - apply etm_lsnode_run; assumption.
  - apply emt_lsnode_run; [apply tsame_flip| |]; assumption.
  - apply etm_snode_run; assumption.
Qed.
Lemma emt_leaf_run both lop rop both' lop' rop' : tsame f both both' -> msame f lop lop' -> tsame f rop rop' ->
  forall (a : lnext K V) (b : lnext L W) d, run f (emt_leaf rd both lop rop a b d) = mt_leaf rd both' lop' rop' a b d.
Proof.
  intros HB HL HR [l|s] [r|s'] d; cbn [emt_leaf mt_leaf].
  - apply etm_lnode_run; [apply tsame_flip| |]; assumption.
  - apply emt_lsnode_run; assumption.
  - apply etm_lsnode_run; [apply tsame_flip| |]; assumption.
  - apply emt_snode_run; assumption.
Qed.
Lemma emm_leaf_run {S X} (both : etransmute A ((K * V) * (L * W)) S X R) lop rop both' lop' rop' :
  msame f both both' -> msame f lop lop' -> msame f rop rop' ->
  forall (a : lnext K V) (b : lnext L W) d, run f (emm_leaf rd both lop rop a b d) = mm_leaf rd both' lop' rop' a b d.
Proof.
  intros HB HL HR [l|s] [r|s'] d; cbn [emm_leaf mm_leaf].
  - apply emm_lnode_run; assumption.
  - apply emm_lsnode_run; assumption.
  - apply emm_lsnode_run; [apply msame_flip| |]; assumption.
  - apply emm_snode_run; assumption.
Qed.

End Maps.

Section Trees.
Context {E : Env} {Q : Type} {A : Q -> Type} {K V L W R : Type} {KK : Key K} {KL : Key L}.
Context (f : forall q, A q) (rdef : R) (rd : R -> R -> R) (st : strategy).

Lemma etm_tree_leaf_run both lop rop both' lop' rop' : tsame f both both' -> tsame f lop lop' -> msame f rop rop' ->
  forall (r : lnext L W) (n : mnode K V) d, run f (etm_tree_leaf rdef rd st both lop rop r n d) = tm_tree_leaf rdef rd st both' lop' rop' r n d.
Proof.
  intros HB HL HR r n d. apply em_leaf_run.
  - intros m. apply etm_lone_run. assumption.
  - intros m. apply etm_rone_run. assumption.
  - apply etm_leaf_run; assumption.
Qed.
Lemma emt_tree_leaf_run both lop rop both' lop' rop' : tsame f both both' -> msame f lop lop' -> tsame f rop rop' ->
  forall (r : lnext L W) (n : mnode K V) d, run f (emt_tree_leaf rdef rd st both lop rop r n d) = mt_tree_leaf rdef rd st both' lop' rop' r n d.
Proof.
  intros HB HL HR r n d. apply em_leaf_run.
  - intros m. apply emt_lone_run. assumption.
  - intros m. apply emt_rone_run. assumption.
  - apply emt_leaf_run; assumption.
Qed.
Lemma emm_tree_leaf_run {S X} (both : etransmute A ((K * V) * (L * W)) S X R) lop rop both' lop' rop' :
  msame f both both' -> msame f lop lop' -> msame f rop rop' ->
  forall (r : lnext L W) (n : mnode K V) d, run f (emm_tree_leaf rdef rd both lop rop r n d) = mm_tree_leaf rdef rd both' lop' rop' r n d.
Proof.
  intros HB HL HR r n d. apply em_leaf_run.
  - intros m. apply em_transmute_run. assumption.
  - intros m. apply em_transmute_run. assumption.
  - apply emm_leaf_run; assumption.
Qed.

End Trees.

Section Ends.
Context {E : Env} {Q : Type} {A : Q -> Type} {K V L W R : Type} {KK : Key K} {KL : Key L}.
Context (f : forall q, A q) (rdef : R) (rd : R -> R -> R) (st : strategy).

Lemma emap_tm_run both lop rop both' lop' rop' (m : trie K V) (r : trie L W) :
  tsame f both both' -> tsame f lop lop' -> msame f rop rop' ->
  run f (emap_tm rdef rd st both lop rop m r) = map_tm rdef rd st both' lop' rop' m r.
Proof.
  intros HB HL HR. unfold emap_tm, map_tm. rewrite run_bind.
  replace (run f (em_tm rdef rd st both lop rop m r 0)) with (m_tm rdef rd st both' lop' rop' m r 0).
  { destruct (m_tm _ _ _ _ _ _ _ _ _) as [[z|n]| |]; reflexivity. }
  symmetry. apply em_joint_run.
  - intros n. apply etm_lone_run. assumption.
  - intros n. apply etm_rone_run. assumption.
  - apply etm_leaf_run; assumption.
  - apply etm_tree_leaf_run; assumption.
  - apply emt_tree_leaf_run; [apply tsame_flip| |]; assumption.
Qed.
Lemma emap_mt_run both lop rop both' lop' rop' (m : trie K V) (r : trie L W) :
  tsame f both both' -> msame f lop lop' -> tsame f rop rop' ->
  run f (emap_mt rdef rd st both lop rop m r) = map_mt rdef rd st both' lop' rop' m r.
Proof.
  intros HB HL HR. unfold emap_mt, map_mt. rewrite run_bind.
  replace (run f (em_mt rdef rd st both lop rop m r 0)) with (m_mt rdef rd st both' lop' rop' m r 0).
  { destruct (m_mt _ _ _ _ _ _ _ _ _) as [[z|n]| |]; reflexivity. }
  symmetry. apply em_joint_run.
  - intros n. apply emt_lone_run. assumption.
  - intros n. apply emt_rone_run. assumption.
  - apply emt_leaf_run; assumption.
  - apply emt_tree_leaf_run; assumption.
  - apply etm_tree_leaf_run; [apply tsame_flip| |]; assumption.
Qed.
Lemma emap_mm_run {S X} {KS : Key S} (both : etransmute A ((K * V) * (L * W)) S X R) lop rop both' lop' rop' (m : trie K V) (r : trie L W) :
  msame f both both' -> msame f lop lop' -> msame f rop rop' ->
  run f (emap_mm rdef rd both lop rop m r) = map_mm rdef rd both' lop' rop' m r.
Proof.
  intros HB HL HR. unfold emap_mm, map_mm. rewrite run_bind.
  replace (run f (em_mm rdef rd both lop rop m r 0)) with (m_mm rdef rd both' lop' rop' m r 0).
  { destruct (m_mm _ _ _ _ _ _ _ _) as [n| |]; reflexivity. }
  symmetry. apply em_joint_run.
  - intros n. apply em_transmute_run. assumption.
  - intros n. apply em_transmute_run. assumption.
  - apply emm_leaf_run; assumption.
  - apply emm_tree_leaf_run; assumption.
  - apply emm_tree_leaf_run; [apply msame_flip| |]; assumption.
Qed.

End Ends.

Section TTEnds.
Context {E : Env} {Q : Type} {A : Q -> Type} {K V R : Type} {KK : Key K}.
Context (f : forall q, A q) (rdef : R) (rd : R -> R -> R) (st : strategy).

Lemma ett_leaf_run both lop rop both' lop' rop' : jsame f both both' -> tsame f lop lop' -> tsame f rop rop' ->
  forall (a b : lnext K V) d, run f (ett_leaf rd both lop rop a b d) = tt_leaf rd both' lop' rop' a b d.
Proof.
  intros HB HL HR [l|s] [r|s'] d; cbn [ett_leaf tt_leaf].
  - apply ett_lnode_run; assumption.
  - apply ett_lsnode_run; assumption.
  - rewrite run_bind, (ett_lsnode_run f rd (ejflip both) rop lop (jflip both') rop' lop'); [|apply jsame_flip| |]; try assumption.
    destruct (tt_lsnode _ _ _ _ _ _ _); reflexivity.
  - apply ett_snode_run; assumption.
Qed.
Lemma ett_tree_leaf_run both lop rop both' lop' rop' : jsame f both both' -> tsame f lop lop' -> tsame f rop rop' ->
  forall (r : lnext K V) (n : mnode K V) d, run f (ett_tree_leaf rdef rd st both lop rop r n d) = tt_tree_leaf rdef rd st both' lop' rop' r n d.
Proof.
  intros HB HL HR r n d. apply em_leaf_run.
  - intros m. apply ett_lone_run. assumption.
  - intros m. apply ett_rone_run. assumption.
  - apply ett_leaf_run; assumption.
Qed.
Lemma emap_tt_run both lop rop both' lop' rop' (m r : trie K V) :
  jsame f both both' -> tsame f lop lop' -> tsame f rop rop' ->
  run f (emap_tt rdef rd st both lop rop m r) = map_tt rdef rd st both' lop' rop' m r.
Proof.
  intros HB HL HR. unfold emap_tt, map_tt. rewrite run_bind.
  replace (run f (em_tt rdef rd st both lop rop m r 0)) with (m_tt rdef rd st both' lop' rop' m r 0).
  { destruct (m_tt _ _ _ _ _ _ _ _ _) as [[z|z|z|n]| |]; reflexivity. }
  symmetry. unfold em_tt, m_tt. rewrite (ett_short_same f both lop rop both' lop' rop') by assumption. apply em_joint_run.
  - intros n. apply ett_lone_run. assumption.
  - intros n. apply ett_rone_run. assumption.
  - apply ett_leaf_run; assumption.
  - apply ett_tree_leaf_run; assumption.
  - intros n t d. unfold ett_leaf_tree, tt_leaf_tree. rewrite run_bind.
    rewrite (ett_tree_leaf_run (ejflip both) rop lop (jflip both') rop' lop'); [|apply jsame_flip| |]; try assumption.
    destruct (tt_tree_leaf _ _ _ _ _ _ _ _ _); reflexivity.
Qed.

End TTEnds.
