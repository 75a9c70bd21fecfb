(** With a client whose code consists of functions, AskJ.v is Joint.v. *)
From Coq Require Import NArith Arith List Bool Lia.
From Verif Require Import Base Words Flag Bia BiaP Node Inv Api Trans Transform Joint Profile Eff EffP EffTP EffApi EffJ EffJRun Ask AskT AskTRun AskJ.
Import ListNotations.
Open Scope N_scope.

(** Keys that answer what their classes say. *)
Record kysame {E : Env} {Q : Type} {A : Q -> Type} {K L : Type} {KK : Key K} {KL : Key L} (f : forall q, A q) (ky : keyed A K L) : Prop := {
  ks_hash : forall k, exists w, run f (ky_hash ky k) = Ret w /\ proj1_sig w = hashk k;
  ks_hash' : forall k, exists w, run f (ky_hash' ky k) = Ret w /\ proj1_sig w = hashk k;
  ks_eq : forall k l, run f (ky_eq ky k l) = Ret (keqb k l);
  ks_eq' : forall l k, run f (ky_eq' ky l k) = Ret (keqb l k)
}.
Lemma ks_flip {E : Env} {Q : Type} {A : Q -> Type} {K L : Type} {KK : Key K} {KL : Key L} (f : forall q, A q) (ky : keyed A K L) : kysame f ky -> kysame f (ky_flip ky).
Proof. intros [H1 H2 H3 H4]. constructor; assumption. Qed.

Section Traverse.
Context {E : Env} {Q : Type} {A : Q -> Type} {K V L W S X R T : Type} {KL : Key L}.
Context (f : forall q, A q).
Context (def : prog A R) (rdef : R) (rd : R -> R -> R) (Hdef : run f def = Ret rdef).
Context (add : acc S X R -> N -> option (mnode K V) -> option (mnode L W) -> T -> prog A (acc S X R)).
Context (add' : acc S X R -> N -> option (mnode K V) -> option (mnode L W) -> T -> outcome (acc S X R)).
Context (lone : mnode K V -> prog A T) (rone : mnode L W -> prog A T) (done : acc S X R -> outcome T).
Context (lone' : mnode K V -> outcome T) (rone' : mnode L W -> outcome T).
Context (hash : L -> prog A word).
Context (leaf : lnext K V -> lnext L W -> N -> prog A T) (leaf' : lnext K V -> lnext L W -> N -> outcome T).
Context (Hadd : forall a i l r t, run f (add a i l r t) = add' a i l r t).
Context (Hlone : forall n, run f (lone n) = lone' n) (Hrone : forall n, run f (rone n) = rone' n)
  (Hhash : forall k, exists w, run f (hash k) = Ret w /\ proj1_sig w = hashk k)
  (Hleaf : forall a b d, run f (leaf a b d) = leaf' a b d).

Ltac go := cbn [bind]; rewrite ?run_bind, ?run_lift; cbn [bind]; try reflexivity; try apply Hadd.

Lemma am_leaf_run right n : forall d,
  run f (am_leaf def add lone rone done hash leaf right n d) = m_leaf rdef add' lone' rone' done leaf' right n d.
Proof.
  induction n as [bits values x IH|l|s] using mnode_ind'; intros d; cbn [am_leaf m_leaf]; [|apply Hleaf..].
  destruct (Hhash (next_key right)) as (w & Hw & Hv). rewrite run_bind, Hw. cbn [bind]. rewrite run_bind, run_lift, Hv.
  destruct (flag_new_at_depth _ d) as [[flag|]| |]; cbn [bind unwrap]; try reflexivity.
  rewrite run_bind.
  rewrite (aloop_run f def rdef Hdef _ (cl_step add' lone' rone' (fl_flag flag) (next_mnode right) d
     (BIA bits (map (fun c => (c, m_leaf rdef add' lone' rone' done leaf' right c)) values) x))).
  { destruct (loop _ _ _) as [a| |]; cbn [bind]; try reflexivity. apply run_lift. }
  intros a i. unfold acl_step, cl_step. rewrite run_bind, run_lift.
  destruct (bat_bit_index_child (fun c => (c, am_leaf def add lone rone done hash leaf right c))
    (fun c => (c, m_leaf rdef add' lone' rone' done leaf' right c)) bits values x i)
    as [(c & Hc & -> & ->)|[(e & -> & ->)|[[-> ->]|[-> ->]]]]; cbn [bind]; try reflexivity; go;
    destruct (unwrap_ok (nth_bit fw i)) as [bit| |]; cbn [bind]; try reflexivity; destruct (fl_flag flag =? bit); go.
  - rewrite Forall_forall in IH. rewrite (IH c Hc). destruct (m_leaf rdef add' lone' rone' done leaf' right c (d + 1)); go.
  - rewrite Hlone. destruct (lone' c); go.
  - rewrite Hrone. destruct (rone' (next_mnode right)); go.
Qed.

Context (tree_leaf : lnext L W -> mnode K V -> N -> prog A T) (leaf_tree : lnext K V -> mnode L W -> N -> prog A T).
Context (tree_leaf' : lnext L W -> mnode K V -> N -> outcome T) (leaf_tree' : lnext K V -> mnode L W -> N -> outcome T).
Context (Htl : forall r n d, run f (tree_leaf r n d) = tree_leaf' r n d)
  (Hlt : forall n r d, run f (leaf_tree n r d) = leaf_tree' n r d).

Lemma am_joint_run n : forall right d,
  run f (am_joint def add lone rone done leaf tree_leaf leaf_tree n right d) =
  m_joint rdef rd add' lone' rone' done leaf' tree_leaf' leaf_tree' None Sequential n right d.
Proof.
  induction n as [bits values x IH|l|s] using mnode_ind'; intros right d; cbn [am_joint m_joint].
  - destruct right as [rb|r|r]; [|apply Htl..].
    set (M := am_joint def add lone rone done leaf tree_leaf leaf_tree) in *.
    set (M' := m_joint rdef rd add' lone' rone' done leaf' tree_leaf' leaf_tree' None Sequential) in *.
    rewrite run_bind. cbn [run_loop].
    rewrite (aloop_run f def rdef Hdef _ (cc_step add' lone' rone' (BIA bits (map (fun c => (c, fun r => M' c r (d + 1))) values) x) rb)).
    { destruct (loop _ _ _) as [a| |]; cbn [bind]; try reflexivity. apply run_lift. }
    intros a i. unfold acc_step, cc_step. rewrite run_bind, run_lift.
    destruct (bat_bit_index_child (fun c => (c, fun r => M c r (d + 1))) (fun c => (c, fun r => M' c r (d + 1))) bits values x i)
      as [(c & Hc & -> & ->)|[(e & -> & ->)|[[-> ->]|[-> ->]]]]; cbn [bind]; try reflexivity; go;
      destruct (bat_bit_index fw rb i) as [[r|e']| |]; cbn [bind]; try reflexivity; go.
    + rewrite Forall_forall in IH. rewrite (IH c Hc). destruct (M' c r (d + 1)); go.
    + rewrite Hlone. destruct (lone' c); go.
    + rewrite Hrone. destruct (rone' r); go.
  - destruct right; [apply Hlt|apply Hleaf..].
  - destruct right; [apply Hlt|apply Hleaf..].
Qed.
End Traverse.

Section Vectors.
Context {E : Env} {Q : Type} {A : Q -> Type} {K L W : Type} {KK : Key K} {KL : Key L} (f : forall q, A q).
Lemma aposition_run {B} (p : B -> prog A bool) (p' : B -> bool) l : (forall b, run f (p b) = Ret (p' b)) -> run f (aposition p l) = Ret (position p' l).
Proof.
  intros H. induction l as [|b l IH]; cbn [aposition position]; [reflexivity|]. rewrite run_bind, H. cbn [bind]. destruct (p' b); [reflexivity|].
  rewrite run_bind, IH. reflexivity.
Qed.
Lemma atake_run (eq : L -> prog A bool) (k : K) (rights : list (L * W)) : (forall l, run f (eq l) = Ret (keqb k l)) -> run f (atake_key eq rights) = Ret (take_key k rights).
Proof. intros H. unfold atake_key, take_key. rewrite run_bind, (aposition_run _ (fun e => keqb k (fst e))) by (intros b; apply H). reflexivity. Qed.
End Vectors.

Section Next.
Context {E : Env} {Q : Type} {A : Q -> Type} {K V R : Type} (f : forall q, A q).
Context (red : R -> R -> prog A R) (rd : R -> R -> R) (Hred : forall a b, run f (red a b) = Ret (rd a b)).

Lemma an_transform_run (ck : K -> prog A K) (cv : V -> prog A V) (Hck : forall k, run f (ck k) = Ret k) (Hcv : forall v, run f (cv v) = Ret v)
  (op : etransform A (K * V) V R) op' n : tsame f op op' -> run f (an_transform red ck cv op n) = Ret (n_transform rd op' n).
Proof. intros H. destruct n; [apply (al_transform_run f red ck cv rd Hred Hck Hcv)|apply as_transform_run]; assumption. Qed.
Lemma an_transmute_run {S X} (op : etransmute A (K * V) S X R) op' n : msame f op op' -> run f (an_transmute red op n) = Ret (n_transmute rd op' n).
Proof. intros H. destruct n; [apply al_transmute_run|apply as_transmute_run]; assumption. Qed.
Lemma apair_run (a : mnode K V) lf b rf x y : run f (apair red a lf b rf x y) = let* c := cnode_lift a lf b rf in Ret (NRC c (rd x y)).
Proof. unfold apair. rewrite run_bind, run_lift. destruct (cnode_lift a lf b rf); cbn [bind]; try reflexivity. rewrite run_bind, Hred. reflexivity. Qed.
Lemma aflags_two {K' L'} {KK : Key K'} {KL : Key L'} (k : K') (l : L') w w' d : proj1_sig w = hashk k -> proj1_sig w' = hashk l -> aflags w w' d = two_flags k l d.
Proof. intros H H'. unfold aflags, two_flags. rewrite H, H'. reflexivity. Qed.
End Next.

Ltac gone H := repeat (rewrite ?run_bind, ?run_lift, ?H; cbn [bind run]).

(** * transform_with_transmuted *)
Section TM.
Context {E : Env} {Q : Type} {A : Q -> Type} {K V L W R : Type} {KK : Key K} {KL : Key L}.
Context (f : forall q, A q) (red : R -> R -> prog A R) (rd : R -> R -> R) (Hred : forall a b, run f (red a b) = Ret (rd a b)).
Context (ck : K -> prog A K) (cv : V -> prog A V) (Hck : forall k, run f (ck k) = Ret k) (Hcv : forall v, run f (cv v) = Ret v).
Context (ky : keyed A K L) (HK : kysame f ky).
Context (both : etransform A ((K * V) * (L * W)) V R) (lop : etransform A (K * V) V R) (rop : etransmute A (L * W) K V R).
Context (both' : transform_op ((K * V) * (L * W)) V R) (lop' : transform_op (K * V) V R) (rop' : transmute_op (L * W) K V R).
Context (HB : tsame f both both') (HL : tsame f lop lop') (HR : msame f rop rop').

Ltac go := repeat (rewrite ?run_bind, ?run_lift, ?Hred, ?Hck, ?Hcv, ?(ks_eq _ _ HK), ?(etcall_run _ _ _ _ HB), ?(etcall_run _ _ _ _ HL), ?(emcall_run _ _ _ _ HR),
  ?(an_transform_run f red rd Hred ck cv Hck Hcv _ _ _ HL), ?(an_transmute_run f red rd Hred _ _ _ HR), ?(apair_run f red rd Hred),
  ?(as_transform_run f ck Hck _ _ HL), ?(al_result_run f red ck cv rd Hred Hck Hcv); cbn [bind run]); try reflexivity.

Lemma atm_apart_run a b h h' d : proj1_sig h = hashk (next_key a) -> proj1_sig h' = hashk (next_key b) ->
  run f (atm_apart red ck cv lop rop a b h h' d) = tm_apart rd lop' rop' a b d.
Proof.
  intros H1 H2. unfold atm_apart, tm_apart. go. rewrite (aflags_two (next_key a) (next_key b)) by assumption.
  destruct (two_flags _ _ _) as [[lf rf]| |]; cbn [bind]; try reflexivity.
  destruct (tout _ (n_transform rd lop' a)) as [x|], (nnode (n_transmute rd rop' b)) as [y|]; go. destruct (cnode_lift x lf y rf); reflexivity.
Qed.
Lemma atm_s_impl_run s e : run f (atm_s_impl red ck ky both lop rop s e) = Ret (tm_s_impl rd both' lop' rop' s e).
Proof.
  unfold atm_s_impl, tm_s_impl. go. destruct (keqb _ _); go.
  - destruct (tcall both' _); go.
  - destruct (tcall lop' _), (mcall rop' _); go.
Qed.
Lemma atm_take k (rights : list (L * W)) : run f (atake_key (ky_eq ky k) rights) = Ret (take_key k rights).
Proof. apply atake_run. intros l. apply (ks_eq _ _ HK). Qed.
Lemma atm_l_impl_run l : forall rights, run f (atm_l_impl red ck cv ky both lop rop l rights) = Ret (tm_l_impl rd both' lop' rop' l rights).
Proof.
  induction l as [k v n IH z|k v s z]; intros rights; cbn [atm_l_impl tm_l_impl l_key l_value]; rewrite run_bind.
  - rewrite IH. cbn [bind]. destruct (tm_l_impl rd both' lop' rop' n rights) as [next rest]. rewrite run_bind, atm_take. cbn [bind].
    destruct (take_key k rest) as [[e rest']|]; go.
  - rewrite run_bind, atm_take. cbn [bind]. destruct (take_key (s_key s) rights) as [[e rest]|].
    + go. rewrite atm_s_impl_run. cbn [bind run]. rewrite run_bind, atm_take. cbn [bind]. destruct (take_key k rest) as [[e' rest']|]; go.
    + go. rewrite atm_take. cbn [bind]. destruct (take_key k rights) as [[e' rest']|]; go.
Qed.
Lemma atm_rest_run l rights : forall next, run f (atm_rest red rop l rights next) = Ret (tm_rest rd rop' l rights next).
Proof. induction rights as [|e rights IH]; intros next; cbn [atm_rest tm_rest]; [reflexivity|]. go. destruct (mcall rop' e); go; apply IH. Qed.

Lemma hashes_run {X} (k : K) (l : L) (p : word -> word -> prog A X) (o : outcome X) :
  (forall h h', proj1_sig h = hashk k -> proj1_sig h' = hashk l -> run f (p h h') = o) -> run f (let+ h := ky_hash ky k in let+ h' := ky_hash' ky l in p h h') = o.
Proof.
  intros H. destruct (ks_hash _ _ HK k) as (w & Hw & Hv). destruct (ks_hash' _ _ HK l) as (w' & Hw' & Hv').
  rewrite run_bind, Hw. cbn [bind]. rewrite run_bind, Hw'. cbn [bind]. apply H; assumption.
Qed.
Lemma atm_lnode_run l r d : run f (atm_lnode red ck cv ky both lop rop l r d) = tm_lnode rd both' lop' rop' l r d.
Proof.
  unfold atm_lnode, tm_lnode. apply hashes_run. intros h h' H H'. unfold same_hash. rewrite H, H'.
  destruct (_ =? _); [|apply atm_apart_run; assumption]. rewrite run_bind, run_lift.
  destruct (rights_loop _ _ _ _) as [rights| |]; cbn [bind]; try reflexivity. rewrite run_bind, atm_l_impl_run. cbn [bind].
  destruct (tm_l_impl rd both' lop' rop' l rights) as [next rest]. apply atm_rest_run.
Qed.
Lemma atm_ls_impl_run l s : run f (atm_ls_impl red ck cv ky both lop rop l s) = Ret (tm_ls_impl rd both' lop' rop' l s).
Proof.
  induction l as [k v n IH z|k v s' z]; cbn [atm_ls_impl tm_ls_impl l_key l_value]; rewrite run_bind, (ks_eq _ _ HK); cbn [bind]; destruct (keqb _ _); go.
  - rewrite IH. cbn [bind]. go.
  - rewrite atm_s_impl_run. cbn [bind]. go.
Qed.
Lemma atm_lsnode_run l s d : run f (atm_lsnode red ck cv ky both lop rop l s d) = tm_lsnode rd both' lop' rop' l s d.
Proof.
  unfold atm_lsnode, tm_lsnode. apply hashes_run. intros h h' H H'. unfold same_hash. rewrite H, H'.
  destruct (_ =? _); [apply atm_ls_impl_run|apply atm_apart_run; assumption].
Qed.
Lemma atm_snode_run s s' d : run f (atm_snode red ck cv ky both lop rop s s' d) = tm_snode rd both' lop' rop' s s' d.
Proof.
  unfold atm_snode, tm_snode. apply hashes_run. intros h h' H H'. unfold same_hash. rewrite H, H'.
  destruct (_ =? _); [apply atm_s_impl_run|apply atm_apart_run; assumption].
Qed.
Lemma atm_add_run keep (a : acc K V R) i l (r : option (mnode L W)) t : run f (atm_add red keep a i l r t) = tm_add rd keep a i l r t.
Proof.
  unfold atm_add, tm_add. destruct t as [z|n].
  - rewrite run_bind, run_lift. destruct (unwrap l); cbn [bind]; try reflexivity. rewrite run_bind, (apush_run f red rd Hred). destruct (push _ _ _ _ _ _); reflexivity.
  - rewrite run_bind, (apush_new_run f red rd Hred). destruct (push_new _ _ _ _); reflexivity.
Qed.

Context (def : prog A R) (rdef : R) (Hdef : run f def = Ret rdef) (st : strategy).
Lemma atm_lone_run n : run f (atm_lone def red ck cv st lop n) = tm_lone rdef rd st lop' n.
Proof. apply (am_transform_run f def red ck cv rdef rd Hdef Hred Hck Hcv _ _ HL). Qed.
Lemma atm_rone_run n : run f (atm_rone def red rop n) = tm_rone rdef rd rop' n.
Proof. unfold atm_rone, tm_rone. rewrite run_bind, (am_transmute_run f def red rdef rd Hdef Hred _ _ HR). destruct (m_transmute rdef rd rop' n); reflexivity. Qed.
End TM.

(** * transmute_with_transformed *)
Section MT.
Context {E : Env} {Q : Type} {A : Q -> Type} {K V L W R : Type} {KK : Key K} {KL : Key L}.
Context (f : forall q, A q) (red : R -> R -> prog A R) (rd : R -> R -> R) (Hred : forall a b, run f (red a b) = Ret (rd a b)).
Context (cl : L -> prog A L) (cw : W -> prog A W) (Hcl : forall k, run f (cl k) = Ret k) (Hcw : forall v, run f (cw v) = Ret v).
Context (ky : keyed A K L) (HK : kysame f ky).
Context (both : etransform A ((K * V) * (L * W)) W R) (lop : etransmute A (K * V) L W R) (rop : etransform A (L * W) W R).
Context (both' : transform_op ((K * V) * (L * W)) W R) (lop' : transmute_op (K * V) L W R) (rop' : transform_op (L * W) W R).
Context (HB : tsame f both both') (HL : msame f lop lop') (HR : tsame f rop rop').

Ltac go := repeat (rewrite ?run_bind, ?run_lift, ?Hred, ?Hcl, ?Hcw, ?(ks_eq _ _ HK), ?(etcall_run _ _ _ _ HB), ?(emcall_run _ _ _ _ HL), ?(etcall_run _ _ _ _ HR),
  ?(an_transform_run f red rd Hred cl cw Hcl Hcw _ _ _ HR), ?(an_transmute_run f red rd Hred _ _ _ HL), ?(apair_run f red rd Hred); cbn [bind run]); try reflexivity.

Lemma amt_apart_run a b h h' d : proj1_sig h = hashk (next_key a) -> proj1_sig h' = hashk (next_key b) ->
  run f (amt_apart red cl cw lop rop a b h h' d) = mt_apart rd lop' rop' a b d.
Proof.
  intros H1 H2. unfold amt_apart, mt_apart. go. rewrite (aflags_two (next_key a) (next_key b)) by assumption.
  destruct (two_flags _ _ _) as [[lf rf]| |]; cbn [bind]; try reflexivity.
  destruct (nnode (n_transmute rd lop' a)) as [x|], (tout (next_mnode b) (n_transform rd rop' b)) as [y|]; go. destruct (cnode_lift x lf y rf); reflexivity.
Qed.
Lemma amt_s_impl_run s e : run f (amt_s_impl red cl ky both lop rop s e) = Ret (mt_s_impl rd both' lop' rop' s e).
Proof.
  unfold amt_s_impl, mt_s_impl. go. destruct (keqb _ _); go.
  - destruct (tcall both' _); go.
  - destruct (mcall lop' _), (tcall rop' _); go.
Qed.
Lemma amt_hit_run s o next : run f (amt_hit red cl cw s o next) = Ret (mt_hit rd s o next).
Proof. destruct o; cbn [amt_hit mt_hit]; go. Qed.
Lemma amt_miss_run s o next : run f (amt_miss red cl cw s o next) = Ret (mt_miss rd s o next).
Proof. destruct o, next; cbn [amt_miss mt_miss tred]; go. Qed.
Lemma amt_ls_impl_run l s : run f (amt_ls_impl red cl cw ky both lop rop l s) = Ret (mt_ls_impl rd both' lop' rop' l s).
Proof.
  induction l as [k v n IH z|k v s' z]; cbn [amt_ls_impl mt_ls_impl l_key l_value]; rewrite run_bind, (ks_eq _ _ HK); cbn [bind]; destruct (keqb _ _); go.
  - rewrite amt_hit_run. reflexivity.
  - rewrite IH. cbn [bind]. go. apply amt_miss_run.
  - rewrite amt_hit_run. reflexivity.
  - rewrite amt_s_impl_run. cbn [bind]. go. apply amt_miss_run.
Qed.
Lemma amt_lsnode_run l s d : run f (amt_lsnode red cl cw ky both lop rop l s d) = mt_lsnode rd both' lop' rop' l s d.
Proof.
  unfold amt_lsnode, mt_lsnode. apply (hashes_run f ky HK). intros h h' H H'. unfold same_hash. rewrite H, H'.
  destruct (_ =? _); [apply amt_ls_impl_run|apply amt_apart_run; assumption].
Qed.
Lemma amt_snode_run s s' d : run f (amt_snode red cl cw ky both lop rop s s' d) = mt_snode rd both' lop' rop' s s' d.
Proof.
  unfold amt_snode, mt_snode. apply (hashes_run f ky HK). intros h h' H H'. unfold same_hash. rewrite H, H'.
  destruct (_ =? _); [apply amt_s_impl_run|apply amt_apart_run; assumption].
Qed.
Lemma amt_add_run keep (a : acc L W R) i (l : option (mnode K V)) r t : run f (amt_add red keep a i l r t) = mt_add rd keep a i l r t.
Proof.
  unfold amt_add, mt_add. destruct t as [z|n].
  - rewrite run_bind, run_lift. destruct (unwrap r); cbn [bind]; try reflexivity. rewrite run_bind, (apush_run f red rd Hred). destruct (push _ _ _ _ _ _); reflexivity.
  - rewrite run_bind, (apush_new_run f red rd Hred). destruct (push_new _ _ _ _); reflexivity.
Qed.

Context (def : prog A R) (rdef : R) (Hdef : run f def = Ret rdef) (st : strategy).
Lemma amt_lone_run n : run f (amt_lone def red lop n) = mt_lone rdef rd lop' n.
Proof. unfold amt_lone, mt_lone. rewrite run_bind, (am_transmute_run f def red rdef rd Hdef Hred _ _ HL). destruct (m_transmute rdef rd lop' n); reflexivity. Qed.
Lemma amt_rone_run n : run f (amt_rone def red cl cw st rop n) = mt_rone rdef rd st rop' n.
Proof. apply (am_transform_run f def red cl cw rdef rd Hdef Hred Hcl Hcw _ _ HR). Qed.
End MT.

(** * transmute_with_transmuted *)
Section MM.
Context {E : Env} {Q : Type} {A : Q -> Type} {K V L W S X R : Type} {KK : Key K} {KL : Key L}.
Context (f : forall q, A q) (red : R -> R -> prog A R) (rd : R -> R -> R) (Hred : forall a b, run f (red a b) = Ret (rd a b)).
Context (ky : keyed A K L) (HK : kysame f ky).
Context (both : etransmute A ((K * V) * (L * W)) S X R) (lop : etransmute A (K * V) S X R) (rop : etransmute A (L * W) S X R).
Context (both' : transmute_op ((K * V) * (L * W)) S X R) (lop' : transmute_op (K * V) S X R) (rop' : transmute_op (L * W) S X R).
Context (HB : msame f both both') (HL : msame f lop lop') (HR : msame f rop rop').

Ltac go := repeat (rewrite ?run_bind, ?run_lift, ?Hred, ?(ks_eq _ _ HK), ?(emcall_run _ _ _ _ HB), ?(emcall_run _ _ _ _ HL), ?(emcall_run _ _ _ _ HR),
  ?(an_transmute_run f red rd Hred _ _ _ HR), ?(an_transmute_run f red rd Hred _ _ _ HL), ?(apair_run f red rd Hred),
  ?(as_transmute_run f _ _ HL), ?(al_mresult_run f red rd Hred); cbn [bind run]); try reflexivity.

Lemma amm_apart_run a b h h' d : proj1_sig h = hashk (next_key a) -> proj1_sig h' = hashk (next_key b) ->
  run f (amm_apart red lop rop a b h h' d) = mm_apart rd lop' rop' a b d.
Proof.
  intros H1 H2. unfold amm_apart, mm_apart. go. rewrite (aflags_two (next_key a) (next_key b)) by assumption.
  destruct (two_flags _ _ _) as [[lf rf]| |]; cbn [bind]; try reflexivity.
  destruct (nnode (n_transmute rd lop' a)) as [x|], (nnode (n_transmute rd rop' b)) as [y|]; go.
Qed.
Lemma amm_values_run e e' : run f (amm_values red ky both lop rop e e') = Ret (mm_values rd both' lop' rop' e e').
Proof. unfold amm_values, mm_values. go. destruct (keqb _ _); go. destruct (mcall lop' _), (mcall rop' _); go. Qed.
Lemma amm_take k (rights : list (L * W)) : run f (atake_key (ky_eq ky k) rights) = Ret (take_key k rights).
Proof. apply atake_run. intros l. apply (ks_eq _ _ HK). Qed.
Lemma amm_l_impl_run l : forall rights, run f (amm_l_impl red ky both lop rop l rights) = Ret (mm_l_impl rd both' lop' rop' l rights).
Proof.
  induction l as [k v n IH z|k v s z]; intros rights; cbn [amm_l_impl mm_l_impl l_key l_value]; rewrite run_bind.
  - rewrite IH. cbn [bind]. destruct (mm_l_impl rd both' lop' rop' n rights) as [next rest]. rewrite run_bind, amm_take. cbn [bind].
    destruct (take_key k rest) as [[e rest']|]; go.
  - rewrite run_bind, amm_take. cbn [bind]. destruct (take_key (s_key s) rights) as [[e rest]|].
    + go. rewrite amm_values_run. cbn [bind run]. rewrite run_bind, amm_take. cbn [bind]. destruct (take_key k rest) as [[e' rest']|]; go.
    + go. rewrite amm_take. cbn [bind]. destruct (take_key k rights) as [[e' rest']|]; go.
Qed.
Lemma amm_rest_run rights : forall next, run f (amm_rest red rop rights next) = Ret (mm_rest rd rop' rights next).
Proof. induction rights as [|e rights IH]; intros next; cbn [amm_rest mm_rest]; [reflexivity|]. go. destruct (mcall rop' e); go; apply IH. Qed.
Lemma amm_lnode_run l r d : run f (amm_lnode red ky both lop rop l r d) = mm_lnode rd both' lop' rop' l r d.
Proof.
  unfold amm_lnode, mm_lnode. apply (hashes_run f ky HK). intros h h' H H'. unfold same_hash. rewrite H, H'.
  destruct (_ =? _); [|apply amm_apart_run; assumption]. rewrite run_bind, run_lift.
  destruct (rights_loop _ _ _ _) as [rights| |]; cbn [bind]; try reflexivity. rewrite run_bind, amm_l_impl_run. cbn [bind].
  destruct (mm_l_impl rd both' lop' rop' l rights) as [next rest]. apply amm_rest_run.
Qed.
Lemma amm_ls_impl_run l s : run f (amm_ls_impl red ky both lop rop l s) = Ret (mm_ls_impl rd both' lop' rop' l s).
Proof.
  induction l as [k v n IH z|k v s' z]; cbn [amm_ls_impl mm_ls_impl l_key l_value]; rewrite run_bind, (ks_eq _ _ HK); cbn [bind]; destruct (keqb _ _); go.
  - rewrite IH. cbn [bind]. go.
  - rewrite amm_values_run. cbn [bind]. go.
Qed.
Lemma amm_lsnode_run l s d : run f (amm_lsnode red ky both lop rop l s d) = mm_lsnode rd both' lop' rop' l s d.
Proof.
  unfold amm_lsnode, mm_lsnode. apply (hashes_run f ky HK). intros h h' H H'. unfold same_hash. rewrite H, H'.
  destruct (_ =? _); [apply amm_ls_impl_run|apply amm_apart_run; assumption].
Qed.
Lemma amm_snode_run s s' d : run f (amm_snode red ky both lop rop s s' d) = mm_snode rd both' lop' rop' s s' d.
Proof.
  unfold amm_snode, mm_snode. apply (hashes_run f ky HK). intros h h' H H'. unfold same_hash. rewrite H, H'.
  destruct (_ =? _); [apply amm_values_run|apply amm_apart_run; assumption].
Qed.
End MM.

(** * Families *)
Section Families.
Context {E : Env} {Q : Type} {A : Q -> Type} {K V L W R : Type} {KK : Key K} {KL : Key L}.
Context (f : forall q, A q) (red : R -> R -> prog A R) (rd : R -> R -> R) (Hred : forall a b, run f (red a b) = Ret (rd a b)).
Context (def : prog A R) (rdef : R) (Hdef : run f def = Ret rdef) (st : strategy).
Context (ky : keyed A K L) (HK : kysame f ky).

Section Left.
Context (ck : K -> prog A K) (cv : V -> prog A V) (Hck : forall k, run f (ck k) = Ret k) (Hcv : forall v, run f (cv v) = Ret v).
Lemma atm_leaf_run both lop rop both' lop' rop' : tsame f both both' -> tsame f lop lop' -> msame f rop rop' ->
  forall (a : lnext K V) (b : lnext L W) d, run f (atm_leaf red ck cv ky both lop rop a b d) = tm_leaf rd both' lop' rop' a b d.
Proof.
  intros HB HL HR [l|s] [r|s'] d; cbn [atm_leaf tm_leaf].
  - apply atm_lnode_run; assumption.
  - apply atm_lsnode_run; assumption.
  - apply amt_lsnode_run; [..|apply ks_flip|apply tsame_flip| |]; assumption.
  - apply atm_snode_run; assumption.
Qed.
Lemma atm_tree_leaf_run both lop rop both' lop' rop' : tsame f both both' -> tsame f lop lop' -> msame f rop rop' ->
  forall (r : lnext L W) (n : mnode K V) d, run f (atm_tree_leaf def red ck cv ky st both lop rop r n d) = tm_tree_leaf rdef rd st both' lop' rop' r n d.
Proof.
  intros HB HL HR r n d. apply am_leaf_run.
  - exact Hdef.
  - intros. apply atm_add_run. exact Hred.
  - intros m. apply atm_lone_run; assumption.
  - intros m. apply atm_rone_run; assumption.
  - apply (ks_hash' _ _ HK).
  - apply atm_leaf_run; assumption.
Qed.
End Left.

Section Right.
Context (cl : L -> prog A L) (cw : W -> prog A W) (Hcl : forall k, run f (cl k) = Ret k) (Hcw : forall v, run f (cw v) = Ret v).
Lemma amt_leaf_run both lop rop both' lop' rop' : tsame f both both' -> msame f lop lop' -> tsame f rop rop' ->
  forall (a : lnext K V) (b : lnext L W) d, run f (amt_leaf red cl cw ky both lop rop a b d) = mt_leaf rd both' lop' rop' a b d.
Proof.
  intros HB HL HR [l|s] [r|s'] d; cbn [amt_leaf mt_leaf].
  - apply atm_lnode_run; [..|apply ks_flip|apply tsame_flip| |]; assumption.
  - apply amt_lsnode_run; assumption.
  - apply atm_lsnode_run; [..|apply ks_flip|apply tsame_flip| |]; assumption.
  - apply amt_snode_run; assumption.
Qed.
Lemma amt_tree_leaf_run both lop rop both' lop' rop' : tsame f both both' -> msame f lop lop' -> tsame f rop rop' ->
  forall (r : lnext L W) (n : mnode K V) d, run f (amt_tree_leaf def red cl cw ky st both lop rop r n d) = mt_tree_leaf rdef rd st both' lop' rop' r n d.
Proof.
  intros HB HL HR r n d. apply am_leaf_run.
  - exact Hdef.
  - intros. apply amt_add_run. exact Hred.
  - intros m. apply amt_lone_run; assumption.
  - intros m. apply amt_rone_run; assumption.
  - apply (ks_hash' _ _ HK).
  - apply amt_leaf_run; assumption.
Qed.
End Right.

Lemma amm_leaf_run {S X} (both : etransmute A ((K * V) * (L * W)) S X R) lop rop both' lop' rop' :
  msame f both both' -> msame f lop lop' -> msame f rop rop' ->
  forall (a : lnext K V) (b : lnext L W) d, run f (amm_leaf red ky both lop rop a b d) = mm_leaf rd both' lop' rop' a b d.
Proof.
  intros HB HL HR [l|s] [r|s'] d; cbn [amm_leaf mm_leaf].
  - apply amm_lnode_run; assumption.
  - apply amm_lsnode_run; assumption.
  - apply amm_lsnode_run; [..|apply ks_flip|apply msame_flip| |]; assumption.
  - apply amm_snode_run; assumption.
Qed.
Lemma amm_tree_leaf_run {S X} (both : etransmute A ((K * V) * (L * W)) S X R) lop rop both' lop' rop' :
  msame f both both' -> msame f lop lop' -> msame f rop rop' ->
  forall (r : lnext L W) (n : mnode K V) d, run f (amm_tree_leaf def red ky both lop rop r n d) = mm_tree_leaf rdef rd both' lop' rop' r n d.
Proof.
  intros HB HL HR r n d. apply am_leaf_run.
  - exact Hdef.
  - intros. apply (apush_new_run f red rd Hred).
  - intros m. apply am_transmute_run; assumption.
  - intros m. apply am_transmute_run; assumption.
  - apply (ks_hash' _ _ HK).
  - apply amm_leaf_run; assumption.
Qed.
End Families.

Section Trees.
Context {E : Env} {Q : Type} {A : Q -> Type} {K V L W R : Type} {KK : Key K} {KL : Key L}.
Context (f : forall q, A q) (red : R -> R -> prog A R) (rd : R -> R -> R) (Hred : forall a b, run f (red a b) = Ret (rd a b)).
Context (def : prog A R) (rdef : R) (Hdef : run f def = Ret rdef) (st : strategy).
Context (ky : keyed A K L) (HK : kysame f ky).

Lemma am_tm_run (ck : K -> prog A K) (cv : V -> prog A V) (Hck : forall k, run f (ck k) = Ret k) (Hcv : forall v, run f (cv v) = Ret v) both lop rop both' lop' rop' :
  tsame f both both' -> tsame f lop lop' -> msame f rop rop' -> forall (m : mnode K V) (r : mnode L W) d,
  run f (am_tm def red ky st ck cv both lop rop m r d) = m_tm rdef rd st both' lop' rop' m r d.
Proof.
  intros HB HL HR m r d. apply am_joint_run.
  - exact Hdef.
  - intros. apply atm_add_run. exact Hred.
  - intros n. apply atm_lone_run; assumption.
  - intros n. apply atm_rone_run; assumption.
  - apply atm_leaf_run; assumption.
  - apply atm_tree_leaf_run; assumption.
  - apply amt_tree_leaf_run; [..|apply ks_flip| | |apply tsame_flip| |]; assumption.
Qed.
Lemma am_mt_run (cl : L -> prog A L) (cw : W -> prog A W) (Hcl : forall k, run f (cl k) = Ret k) (Hcw : forall v, run f (cw v) = Ret v) both lop rop both' lop' rop' :
  tsame f both both' -> msame f lop lop' -> tsame f rop rop' -> forall (m : mnode K V) (r : mnode L W) d,
  run f (am_mt def red ky st cl cw both lop rop m r d) = m_mt rdef rd st both' lop' rop' m r d.
Proof.
  intros HB HL HR m r d. apply am_joint_run.
  - exact Hdef.
  - intros. apply amt_add_run. exact Hred.
  - intros n. apply amt_lone_run; assumption.
  - intros n. apply amt_rone_run; assumption.
  - apply amt_leaf_run; assumption.
  - apply amt_tree_leaf_run; assumption.
  - apply atm_tree_leaf_run; [..|apply ks_flip| | |apply tsame_flip| |]; assumption.
Qed.
Lemma am_mm_run {S X} {KS : Key S} (both : etransmute A ((K * V) * (L * W)) S X R) lop rop both' lop' rop' :
  msame f both both' -> msame f lop lop' -> msame f rop rop' -> forall (m : mnode K V) (r : mnode L W) d,
  run f (am_mm def red ky both lop rop m r d) = m_mm rdef rd both' lop' rop' m r d.
Proof.
  intros HB HL HR m r d. apply am_joint_run.
  - exact Hdef.
  - intros. apply (apush_new_run f red rd Hred).
  - intros n. apply am_transmute_run; assumption.
  - intros n. apply am_transmute_run; assumption.
  - apply amm_leaf_run; assumption.
  - apply amm_tree_leaf_run; assumption.
  - apply amm_tree_leaf_run; [..|apply ks_flip|apply msame_flip| |]; assumption.
Qed.
End Trees.

(** * The public operations *)
Section Api.
Context {E : Env} {KL VL KR VR K V TB TL TR R : Type} {KKL : Key KL} {KKR : Key KR}.
Context (rdef : R) (rd : R -> R -> R) (gb : (KL * VL) * (KR * VR) -> TB) (gl : KL * VL -> TL) (gr : KR * VR -> TR).

Definition hash_word {K0} {KK0 : Key K0} (k : K0) : word := exist _ (hashk k) (hash_lt (cls k)).
(** Functions in the place of the client's code; keys that keep their contracts. *)
Definition jfunctions (q : jcalls KL VL KR VR K V R) : jreply KL VL KR VR K V TB TL TR R q :=
  match q return jreply KL VL KR VR K V TB TL TR R q with
  | JBoth x y => gb (x, y)
  | JLeft x => gl x
  | JRight y => gr y
  | JReduce a b => rd a b
  | JDefault => rdef
  | JHash k => hash_word k
  | JHash' k => hash_word k
  | JEq k k' => keqb k k'
  | JEq' k' k => keqb k' k
  | JKey k => k
  | JValue v => v
  end.
Lemma jkeyed_same : kysame jfunctions jkeyed.
Proof. constructor; intros; try reflexivity; (eexists; split; [reflexivity|reflexivity]). Qed.
End Api.

Section Runs.
Context {E : Env} {K V L W R : Type} {KK : Key K} {KL : Key L} (rdef : R) (rd : R -> R -> R).

Lemma tw_same {Q : Type} {A : Q -> Type} {X V' : Type} (f : forall q, A q) (w : tway R) (g : X -> prog A (vres V' R)) (g' : X -> vres V' R) :
  (forall x, run f (g x) = Ret (g' x)) -> tsame f (tw_op w g) (tw_fun w g').
Proof. intros H. destruct w; cbn; auto. Qed.
Lemma mw_same {Q : Type} {A : Q -> Type} {X S' X' : Type} (f : forall q, A q) (w : mway R) (g : X -> prog A (kres S' X' R)) (g' : X -> kres S' X' R) :
  (forall x, run f (g x) = Ret (g' x)) -> msame f (mw_op w g) (mw_fun w g').
Proof. intros H. destruct w; cbn; auto. Qed.

Ltac api_side := first [reflexivity|intros; reflexivity|apply jkeyed_same|apply tw_same; intros []; reflexivity|apply mw_same; intros []; reflexivity].
Lemma ask_tm_run gb gl gr st wb wl wr (m : trie K V) (right : trie L W) :
  run (jfunctions rdef rd gb gl gr) (ask_tm st wb wl wr m right) = map_tm rdef rd st (tw_fun wb gb) (tw_fun wl gl) (mw_fun wr gr) m right.
Proof.
  unfold ask_tm, map_tm. rewrite run_bind.
  rewrite (am_tm_run (jfunctions rdef rd gb gl gr) _ rd) with (rdef := rdef) (both' := tw_fun wb gb) (lop' := tw_fun wl gl) (rop' := mw_fun wr gr);
    [|api_side..].
  destruct (m_tm rdef rd st _ _ _ m right 0) as [[r|n]| |]; reflexivity.
Qed.
Lemma ask_mt_run gb gl gr st wb wl wr (m : trie K V) (right : trie L W) :
  run (jfunctions rdef rd gb gl gr) (ask_mt st wb wl wr m right) = map_mt rdef rd st (tw_fun wb gb) (mw_fun wl gl) (tw_fun wr gr) m right.
Proof.
  unfold ask_mt, map_mt. rewrite run_bind.
  rewrite (am_mt_run (jfunctions rdef rd gb gl gr) _ rd) with (rdef := rdef) (both' := tw_fun wb gb) (lop' := mw_fun wl gl) (rop' := tw_fun wr gr);
    [|api_side..].
  destruct (m_mt rdef rd st _ _ _ m right 0) as [[r|n]| |]; reflexivity.
Qed.
Lemma ask_mm_run {S X} {KS : Key S} (gb : (K * V) * (L * W) -> kres S X R) gl gr wb wl wr (m : trie K V) (right : trie L W) :
  run (jfunctions rdef rd gb gl gr) (ask_mm wb wl wr m right) = map_mm rdef rd (mw_fun wb gb) (mw_fun wl gl) (mw_fun wr gr) m right.
Proof.
  unfold ask_mm, map_mm. rewrite run_bind.
  rewrite (am_mm_run (jfunctions rdef rd gb gl gr) _ rd) with (KS := KS) (rdef := rdef) (both' := mw_fun wb gb) (lop' := mw_fun wl gl) (rop' := mw_fun wr gr);
    [|api_side..].
  destruct (m_mm rdef rd _ _ _ m right 0) as [n| |]; reflexivity.
Qed.
End Runs.
