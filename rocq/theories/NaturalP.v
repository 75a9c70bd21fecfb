(** Transform, transmute and the joint operations are the same whatever type
    the reductions have: a homomorphism of reductions carries over. *)
From Coq Require Import NArith Arith List Bool Lia.
From Verif Require Import Base Words Flag Bia BiaP Node Inv Api Trans Transform Joint JointT Profile EffTP Brackets.
Import ListNotations.
Open Scope N_scope.

(** * Results with other reductions *)
Section Maps.
Context {R R' : Type} (h : R -> R').

Definition nmap {K V} (n : nres K V R) : nres K V R' :=
  match n with NRC c r => NRC c (h r) | NRL l r => NRL l (h r) | NRS s r => NRS s (h r) | NRZ r => NRZ (h r) end.
Definition tmap {K V} (t : tres K V R) : tres K V R' :=
  match t with TU r => TU (h r) | TN n => TN (nmap n) end.
Definition jmap {K V} (j : jres K V R) : jres K V R' :=
  match j with JLR r => JLR (h r) | JL r => JL (h r) | JR r => JR (h r) | JN n => JN (nmap n) end.
Definition amap {K V} (a : acc K V R) : acc K V R' :=
  Acc (a_size a) (a_bits a) (a_values a) (a_ul a) (a_ur a) (h (a_red a)).

Lemma tover_call {A V} (op : transform_op A V R) op' a : tover h op op' -> tcall op' a = vmap h (tcall op a).
Proof. destruct op, op'; cbn; try contradiction; intros H; rewrite H; reflexivity. Qed.
Lemma mover_call {A S X} (op : transmute_op A S X R) op' a : mover h op op' -> mcall op' a = kmap h (mcall op a).
Proof. destruct op, op'; cbn; try contradiction; intros H; rewrite H; reflexivity. Qed.
Lemma jover_call {A V} (op : joint_op A V R) op' a b : jover h op op' -> jcall op' a b = bmap h (jcall op a b).
Proof.
  destruct op as [f fl|r|r|r|r], op' as [f' fl'|r'|r'|r'|r']; cbn; try contradiction; try (intros H; rewrite H; reflexivity).
  intros [-> H]. destruct fl; rewrite H; [destruct (f b a)|]; reflexivity.
Qed.
Lemma tover_flip {A B V} (op : transform_op (A * B) V R) op' : tover h op op' -> tover h (tflip op) (tflip op').
Proof. destruct op, op'; cbn; try contradiction; auto. Qed.
Lemma mover_flip {A B S X} (op : transmute_op (A * B) S X R) op' : mover h op op' -> mover h (mflip op) (mflip op').
Proof. destruct op, op'; cbn; try contradiction; auto. Qed.
Lemma jover_flip {A V} (op : joint_op A V R) op' : jover h op op' -> jover h (jflip op) (jflip op').
Proof. destruct op, op'; cbn; try contradiction; auto. intros [-> H]. auto. Qed.

Lemma nnode_nmap {K V} (n : nres K V R) : nnode (nmap n) = nnode n.
Proof. destruct n; reflexivity. Qed.
Lemma nred_nmap {K V} (n : nres K V R) : nred (nmap n) = h (nred n).
Proof. destruct n; reflexivity. Qed.
Lemma tout_tmap {K V} m (t : tres K V R) : tout m (tmap t) = tout m t.
Proof. destruct t; [reflexivity|apply nnode_nmap]. Qed.
Lemma tred_tmap {K V} (t : tres K V R) : tred (tmap t) = h (tred t).
Proof. destruct t; [reflexivity|apply nred_nmap]. Qed.
Lemma jred_jmap {K V} (j : jres K V R) : jred (jmap j) = h (jred j).
Proof. destruct j; try reflexivity. apply nred_nmap. Qed.
Lemma n_with_nmap {K V} (n : nres K V R) r : n_with (nmap n) (h r) = nmap (n_with n r).
Proof. destruct n; reflexivity. Qed.
Lemma t_with_tmap {K V} (t : tres K V R) r : t_with (tmap t) (h r) = tmap (t_with t r).
Proof. destruct t; [reflexivity|]. cbn. f_equal. apply n_with_nmap. Qed.
Lemma n_cons_nmap {K V} (k : K) (v : V) (n : nres K V R) r : n_cons k v (nmap n) (h r) = nmap (n_cons k v n r).
Proof. destruct n; reflexivity. Qed.
Lemma t_cons_tmap {K V} that (k : K) (v : V) (t : tres K V R) r : t_cons that k v (tmap t) (h r) = tmap (t_cons that k v t r).
Proof. destruct t; [reflexivity|]. cbn. f_equal. apply n_cons_nmap. Qed.

End Maps.

(** * The loops *)
Section Loop.
Context {E : Env} {K V R R' : Type}.
Context (h : R -> R') (rdef : R) (rd : R -> R -> R) (rdef' : R') (rd' : R' -> R' -> R').
Context (H0 : h rdef = rdef') (H1 : forall a b, h (rd a b) = rd' (h a) (h b)).

Lemma acc0_map : acc0 (K := K) (V := V) rdef' = amap h (acc0 rdef).
Proof. unfold acc0, amap. cbn. rewrite H0. reflexivity. Qed.
Lemma push_map (a : acc K V R) i n z r : push rd' (amap h a) i n z (h r) = omap (amap h) (push rd a i n z r).
Proof.
  unfold push. destruct (unwrap_ok (nth_bit fw i)) as [bit| |]; cbn [bind]; try reflexivity.
  cbn [a_bits amap]. destruct (unwrap_ok (bit_insert (a_bits a) bit)) as [bits| |]; cbn [bind]; try reflexivity.
  cbn. unfold amap. cbn. rewrite H1. reflexivity.
Qed.
Lemma push_new_map (a : acc K V R) i n : push_new rd' (amap h a) i (nmap h n) = omap (amap h) (push_new rd a i n).
Proof. destruct n; cbn [push_new nmap]; try apply push_map. unfold amap. cbn. rewrite H1. reflexivity. Qed.

Lemma loop_map (step : acc K V R -> N -> outcome (acc K V R)) (step' : acc K V R' -> N -> outcome (acc K V R')) l :
  (forall a i, step' (amap h a) i = omap (amap h) (step a i)) ->
  forall a, loop step' l (amap h a) = omap (amap h) (loop step l a).
Proof.
  intros Hs. induction l as [|i l IH]; intros a; cbn [loop]; [reflexivity|].
  rewrite Hs. destruct (step a i) as [a'| |]; cbn [omap bind]; auto.
Qed.
Lemma run_loop_map st (step : acc K V R -> N -> outcome (acc K V R)) (step' : acc K V R' -> N -> outcome (acc K V R')) :
  (forall a i, step' (amap h a) i = omap (amap h) (step a i)) ->
  run_loop rdef' rd' st step' = omap (amap h) (run_loop rdef rd st step).
Proof.
  intros Hs. destruct st; cbn [run_loop]; [rewrite acc0_map; apply loop_map; assumption|].
  unfold halves. rewrite acc0_map, !(loop_map step step') by assumption.
  destruct (loop step _ _) as [l| |]; cbn [omap bind]; try reflexivity.
  destruct (loop step _ _) as [r| |]; cbn [omap bind]; try reflexivity.
  cbn [a_bits amap]. destruct (unwrap_ok (bit_merge _ _)) as [bits| |]; cbn [omap bind]; try reflexivity.
  unfold amap. cbn. rewrite H1. reflexivity.
Qed.
Lemma finish_map (a : acc K V R) : finish (amap h a) = omap (nmap h) (finish a).
Proof.
  unfold finish. cbn [a_values amap a_bits a_size a_red].
  destruct (a_values a) as [|[c|l|s] [|n vs]]; try reflexivity; destruct (unwrap_ok _) as [b| |]; reflexivity.
Qed.

End Loop.

(** * transform and transmute *)
Section One.
Context {E : Env} {K V R R' : Type}.
Context (h : R -> R') (rdef : R) (rd : R -> R -> R) (rdef' : R') (rd' : R' -> R' -> R').
Context (H0 : h rdef = rdef') (H1 : forall a b, h (rd a b) = rd' (h a) (h b)).

Lemma l_transform_result_map (l : lnode K V) v t :
  l_transform_result rd' l (vmap h v) (tmap h t) = tmap h (l_transform_result rd l v t).
Proof. destruct v, t as [z|[c z|l' z|s z|z]]; cbn; rewrite ?H1; try reflexivity. destruct (l_next l); cbn; rewrite H1; reflexivity. Qed.

Section T.
Context (op : transform_op (K * V) V R) (op' : transform_op (K * V) V R') (HO : tover h op op').

Lemma s_transform_map s : s_transform op' s = tmap h (s_transform op s).
Proof. unfold s_transform. rewrite (tover_call h op op' _ HO). destruct (tcall op _); reflexivity. Qed.
Lemma l_transform_map l : l_transform rd' op' l = tmap h (l_transform rd op l).
Proof.
  induction l as [k v n IH z|k v s z]; cbn [l_transform]; pose proof HO as HO';
    destruct op as [f|r|r] eqn:Ho, op' as [f'|r'|r'] eqn:Ho'; cbn in HO'; try contradiction; try (subst; reflexivity); rewrite <- Ho, <- Ho' in *.
  - rewrite IH, (tover_call h op op' _ HO). apply l_transform_result_map.
  - rewrite s_transform_map, (tover_call h op op' _ HO). apply l_transform_result_map.
Qed.
Lemma m_transform_map st n : m_transform rdef' rd' st op' n = omap (tmap h) (m_transform rdef rd st op n).
Proof.
  induction n as [bits values x IH|l|s] using mnode_ind'; cbn [m_transform].
  - pose proof HO as HO'; destruct op as [f|r|r] eqn:Ho, op' as [f'|r'|r'] eqn:Ho'; cbn in HO'; try contradiction; try (subst; reflexivity).
    rewrite <- Ho, <- Ho' in *.
    rewrite (run_loop_map h rdef rd rdef' rd' H0 H1 st (c_transform_step rd (BIA bits (map (fun c => (c, m_transform rdef rd st op c)) values) x))).
    { destruct (run_loop rdef rd st _) as [a| |]; cbn [omap bind]; try reflexivity. cbn [a_ul amap]. destruct (a_ul a); [reflexivity|].
      rewrite finish_map. destruct (finish a); reflexivity. }
    intros a i. unfold c_transform_step.
    destruct (bat_bit_index_child (fun c => (c, m_transform rdef rd st op c)) (fun c => (c, m_transform rdef' rd' st op' c)) bits values x i)
      as [(c & Hc & -> & ->)|[(e & -> & ->)|[[-> ->]|[-> ->]]]]; cbn [bind omap]; try reflexivity.
    rewrite Forall_forall in IH. rewrite (IH c Hc). destruct (m_transform rdef rd st op c) as [[z|n]| |]; cbn [omap bind tmap]; try reflexivity.
    + apply push_map; assumption.
    + rewrite (push_new_map h rd rd') by assumption. destruct (push_new rd a i n); reflexivity.
  - rewrite l_transform_map. reflexivity.
  - rewrite s_transform_map. reflexivity.
Qed.
Lemma n_transform_map n : n_transform rd' op' n = tmap h (n_transform rd op n).
Proof. destruct n; [apply l_transform_map|apply s_transform_map]. Qed.
End T.

Section M.
Context {S X : Type}.
Lemma l_transmute_result_map v t :
  l_transmute_result (S := S) (X := X) rd' (kmap h v) (nmap h t) = nmap h (l_transmute_result rd v t).
Proof. destruct v, t; cbn; rewrite ?H1; reflexivity. Qed.

Context (op : transmute_op (K * V) S X R) (op' : transmute_op (K * V) S X R') (HO : mover h op op').

Lemma s_transmute_map s : s_transmute op' s = nmap h (s_transmute op s).
Proof. unfold s_transmute. rewrite (mover_call h op op' _ HO). destruct (mcall op _); reflexivity. Qed.
Lemma l_transmute_map l : l_transmute rd' op' l = nmap h (l_transmute rd op l).
Proof.
  induction l as [k v n IH z|k v s z]; cbn [l_transmute]; pose proof HO as HO';
    destruct op as [f|r] eqn:Ho, op' as [f'|r'] eqn:Ho'; cbn in HO'; try contradiction; try (subst; reflexivity); rewrite <- Ho, <- Ho' in *.
  - rewrite IH, (mover_call h op op' _ HO). apply l_transmute_result_map.
  - rewrite s_transmute_map, (mover_call h op op' _ HO). apply l_transmute_result_map.
Qed.
Lemma m_transmute_map n : m_transmute rdef' rd' op' n = omap (nmap h) (m_transmute rdef rd op n).
Proof.
  induction n as [bits values x IH|l|s] using mnode_ind'; cbn [m_transmute].
  - pose proof HO as HO'; destruct op as [f|r] eqn:Ho, op' as [f'|r'] eqn:Ho'; cbn in HO'; try contradiction; try (subst; reflexivity).
    rewrite <- Ho, <- Ho' in *. rewrite (acc0_map h rdef) by assumption.
    rewrite (loop_map h (c_transmute_step rd (BIA bits (map (m_transmute rdef rd op) values) x))).
    { destruct (loop _ _ _) as [a| |]; cbn [omap bind]; try reflexivity. cbn [a_values a_bits amap].
      destruct (_ =? _); [apply finish_map|reflexivity]. }
    intros a i. unfold c_transmute_step.
    destruct (bat_bit_index_child (m_transmute rdef rd op) (m_transmute rdef' rd' op') bits values x i)
      as [(c & Hc & -> & ->)|[(e & -> & ->)|[[-> ->]|[-> ->]]]]; cbn [bind omap]; try reflexivity.
    rewrite Forall_forall in IH. rewrite (IH c Hc). destruct (m_transmute rdef rd op c) as [n| |]; cbn [omap bind]; try reflexivity.
    apply push_new_map; assumption.
  - rewrite l_transmute_map. reflexivity.
  - rewrite s_transmute_map. reflexivity.
Qed.
Lemma n_transmute_map n : n_transmute rd' op' n = nmap h (n_transmute rd op n).
Proof. destruct n; [apply l_transmute_map|apply s_transmute_map]. Qed.
End M.

End One.

(** * The traversals *)
Section Traverse.
Context {E : Env} {K V L W S X R R' T T' : Type} {KL : Key L}.
Context (h : R -> R') (th : T -> T') (rdef : R) (rd : R -> R -> R) (rdef' : R') (rd' : R' -> R' -> R').
Context (H0 : h rdef = rdef') (H1 : forall a b, h (rd a b) = rd' (h a) (h b)).
Context (add : acc S X R -> N -> option (mnode K V) -> option (mnode L W) -> T -> outcome (acc S X R))
  (add' : acc S X R' -> N -> option (mnode K V) -> option (mnode L W) -> T' -> outcome (acc S X R')).
Context (lone : mnode K V -> outcome T) (rone : mnode L W -> outcome T) (done : acc S X R -> outcome T).
Context (lone' : mnode K V -> outcome T') (rone' : mnode L W -> outcome T') (done' : acc S X R' -> outcome T').
Context (leaf : lnext K V -> lnext L W -> N -> outcome T) (leaf' : lnext K V -> lnext L W -> N -> outcome T').
Context (Hadd : forall a i ol or t, add' (amap h a) i ol or (th t) = omap (amap h) (add a i ol or t))
  (Hlone : forall n, lone' n = omap th (lone n)) (Hrone : forall n, rone' n = omap th (rone n))
  (Hdone : forall a, done' (amap h a) = omap th (done a))
  (Hleaf : forall a b d, leaf' a b d = omap th (leaf a b d)).

Lemma m_leaf_map right n : forall d, m_leaf rdef' add' lone' rone' done' leaf' right n d = omap th (m_leaf rdef add lone rone done leaf right n d).
Proof.
  induction n as [bits values x IH|l|s] using mnode_ind'; intros d; cbn [m_leaf]; [|apply Hleaf..].
  destruct (flag_new_at_depth _ d) as [[flag|]| |]; cbn [bind unwrap]; try reflexivity.
  rewrite (acc0_map h rdef) by assumption.
  rewrite (loop_map h (cl_step add lone rone (fl_flag flag) (next_mnode right) d
     (BIA bits (map (fun c => (c, m_leaf rdef add lone rone done leaf right c)) values) x))).
  { destruct (loop _ _ _) as [a| |]; cbn [omap bind]; try reflexivity. apply Hdone. }
  intros a i. unfold cl_step.
  destruct (bat_bit_index_child (fun c => (c, m_leaf rdef add lone rone done leaf right c))
    (fun c => (c, m_leaf rdef' add' lone' rone' done' leaf' right c)) bits values x i)
    as [(c & Hc & -> & ->)|[(e & -> & ->)|[[-> ->]|[-> ->]]]]; cbn [bind]; try reflexivity;
    destruct (unwrap_ok (nth_bit fw i)) as [bit| |]; cbn [bind]; try reflexivity; destruct (fl_flag flag =? bit); try reflexivity.
  - rewrite Forall_forall in IH. rewrite (IH c Hc). destruct (m_leaf rdef add lone rone done leaf right c (d + 1)); cbn [omap bind]; auto.
  - rewrite Hlone. destruct (lone c); cbn [omap bind]; auto.
  - rewrite Hrone. destruct (rone (next_mnode right)); cbn [omap bind]; auto.
Qed.

Context (tree_leaf : lnext L W -> mnode K V -> N -> outcome T) (leaf_tree : lnext K V -> mnode L W -> N -> outcome T).
Context (tree_leaf' : lnext L W -> mnode K V -> N -> outcome T') (leaf_tree' : lnext K V -> mnode L W -> N -> outcome T').
Context (Htl : forall r n d, tree_leaf' r n d = omap th (tree_leaf r n d))
  (Hlt : forall n r d, leaf_tree' n r d = omap th (leaf_tree n r d)).
Context (short : option T) (st : strategy).

Lemma m_joint_map n : forall right d,
  m_joint rdef' rd' add' lone' rone' done' leaf' tree_leaf' leaf_tree' (option_map th short) st n right d =
  omap th (m_joint rdef rd add lone rone done leaf tree_leaf leaf_tree short st n right d).
Proof.
  induction n as [bits values x IH|l|s] using mnode_ind'; intros right d; cbn [m_joint].
  - destruct right as [rb|r|r]; [|apply Htl..]. destruct short as [t|]; [reflexivity|]. cbn [option_map].
    set (M := m_joint rdef rd add lone rone done leaf tree_leaf leaf_tree None st) in *.
    set (M' := m_joint rdef' rd' add' lone' rone' done' leaf' tree_leaf' leaf_tree' (option_map th None) st) in *.
    change (m_joint rdef' rd' add' lone' rone' done' leaf' tree_leaf' leaf_tree' None st) with M'.
    rewrite (run_loop_map h rdef rd rdef' rd' H0 H1 st (cc_step add lone rone (BIA bits (map (fun c => (c, fun r => M c r (d + 1))) values) x) rb)).
    { destruct (run_loop rdef rd st _) as [a| |]; cbn [omap bind]; try reflexivity. apply Hdone. }
    intros a i. unfold cc_step.
    destruct (bat_bit_index_child (fun c => (c, fun r => M c r (d + 1))) (fun c => (c, fun r => M' c r (d + 1))) bits values x i)
      as [(c & Hc & -> & ->)|[(e & -> & ->)|[[-> ->]|[-> ->]]]]; cbn [bind]; try reflexivity;
      destruct (bat_bit_index fw rb i) as [[r|e']| |]; cbn [bind]; try reflexivity.
    + rewrite Forall_forall in IH. rewrite (IH c Hc). destruct (M c r (d + 1)); cbn [omap bind]; auto.
    + rewrite Hlone. destruct (lone c); cbn [omap bind]; auto.
    + rewrite Hrone. destruct (rone r); cbn [omap bind]; auto.
  - destruct right; [apply Hlt|apply Hleaf..].
  - destruct right; [apply Hlt|apply Hleaf..].
Qed.

End Traverse.

(** * Families *)
Section TM.
Context {E : Env} {K V L W R R' : Type} {KK : Key K} {KL : Key L}.
Context (h : R -> R') (rdef : R) (rd : R -> R -> R) (rdef' : R') (rd' : R' -> R' -> R').
Context (H0 : h rdef = rdef') (H1 : forall a b, h (rd a b) = rd' (h a) (h b)).
Context (both : transform_op ((K * V) * (L * W)) V R) (lop : transform_op (K * V) V R) (rop : transmute_op (L * W) K V R).
Context (both' : transform_op ((K * V) * (L * W)) V R') (lop' : transform_op (K * V) V R') (rop' : transmute_op (L * W) K V R').
Context (HB : tover h both both') (HL : tover h lop lop') (HR : mover h rop rop').

Lemma tm_apart_map a b d : tm_apart rd' lop' rop' a b d = omap (tmap h) (tm_apart rd lop rop a b d).
Proof.
  unfold tm_apart. rewrite (n_transform_map h rd rd' H1 lop lop' HL), (n_transmute_map h rd rd' H1 rop rop' HR).
  destruct (two_flags _ _ d) as [[lf rf]| |]; cbn [bind omap]; try reflexivity.
  rewrite tout_tmap, nnode_nmap, tred_tmap, nred_nmap, <- H1.
  destruct (tout (next_mnode a) (n_transform rd lop a)) as [x|], (nnode (n_transmute rd rop b)) as [y|]; cbn [omap]; rewrite ?t_with_tmap, ?n_with_nmap; try reflexivity.
  destruct (cnode_lift x lf y rf); reflexivity.
Qed.
Lemma tm_s_impl_map s e : tm_s_impl rd' both' lop' rop' s e = tmap h (tm_s_impl rd both lop rop s e).
Proof.
  unfold tm_s_impl. rewrite (tover_call h both both' _ HB), (tover_call h lop lop' _ HL), (mover_call h rop rop' _ HR).
  destruct (keqb _ _); [destruct (tcall both _); reflexivity|].
  destruct (tcall lop _), (mcall rop _); cbn; rewrite ?H1; reflexivity.
Qed.
Lemma tm_l_impl_map l : forall rights,
  tm_l_impl rd' both' lop' rop' l rights = (let (t, rest) := tm_l_impl rd both lop rop l rights in (tmap h t, rest)).
Proof.
  induction l as [k v n IH z|k v s z]; intros rights; cbn [tm_l_impl].
  - rewrite IH. destruct (tm_l_impl rd both lop rop n rights) as [next rest].
    destruct (take_key _ rest) as [[e rest']|]; rewrite ?(tover_call h both both' _ HB), ?(tover_call h lop lop' _ HL);
      rewrite (l_transform_result_map h rd rd' H1); reflexivity.
  - destruct (take_key (s_key s) rights) as [[e rest]|]; rewrite ?tm_s_impl_map, ?(s_transform_map h lop lop' HL).
    + destruct (take_key _ rest) as [[e' rest']|]; rewrite ?(tover_call h both both' _ HB), ?(tover_call h lop lop' _ HL);
      rewrite (l_transform_result_map h rd rd' H1); reflexivity.
    + destruct (take_key _ rights) as [[e' rest']|]; rewrite ?(tover_call h both both' _ HB), ?(tover_call h lop lop' _ HL);
      rewrite (l_transform_result_map h rd rd' H1); reflexivity.
Qed.
Lemma tm_rest_map l rights : forall next, tm_rest rd' rop' l rights (tmap h next) = tmap h (tm_rest rd rop l rights next).
Proof.
  induction rights as [|e rights IH]; intros next; cbn [tm_rest]; [reflexivity|]. rewrite (mover_call h rop rop' _ HR).
  destruct (mcall rop e); cbn [kmap]; rewrite tred_tmap, <- H1, ?t_cons_tmap, ?t_with_tmap; apply IH.
Qed.
Lemma tm_lnode_map l r d : tm_lnode rd' both' lop' rop' l r d = omap (tmap h) (tm_lnode rd both lop rop l r d).
Proof.
  unfold tm_lnode. destruct (_ =? _); [|apply tm_apart_map].
  destruct (rights_loop _ _ _ _) as [rights| |]; cbn [bind omap]; try reflexivity. rewrite tm_l_impl_map.
  destruct (tm_l_impl rd both lop rop l rights) as [next rest]. cbn [omap]. f_equal. apply tm_rest_map.
Qed.
Lemma tm_ls_impl_map l s : tm_ls_impl rd' both' lop' rop' l s = tmap h (tm_ls_impl rd both lop rop l s).
Proof.
  induction l as [k v n IH z|k v s' z]; cbn [tm_ls_impl]; destruct (keqb _ _);
    rewrite ?(tover_call h both both' _ HB), ?(tover_call h lop lop' _ HL), ?(n_transform_map h rd rd' H1 lop lop' HL), ?IH, ?tm_s_impl_map;
    apply (l_transform_result_map h rd rd' H1).
Qed.
Lemma tm_lsnode_map l s d : tm_lsnode rd' both' lop' rop' l s d = omap (tmap h) (tm_lsnode rd both lop rop l s d).
Proof. unfold tm_lsnode. destruct (_ =? _); [rewrite tm_ls_impl_map; reflexivity|apply tm_apart_map]. Qed.
Lemma tm_snode_map s s' d : tm_snode rd' both' lop' rop' s s' d = omap (tmap h) (tm_snode rd both lop rop s s' d).
Proof. unfold tm_snode. destruct (_ =? _); [rewrite tm_s_impl_map; reflexivity|apply tm_apart_map]. Qed.

Lemma tm_add_map keep a i (ol : option (mnode K V)) (or : option (mnode L W)) t :
  tm_add rd' keep (amap h a) i ol or (tmap h t) = omap (amap h) (tm_add rd keep a i ol or t).
Proof.
  destruct t as [r|n]; cbn [tm_add tmap].
  - destruct ol as [l|]; cbn [unwrap bind]; try reflexivity. rewrite (push_map h rd rd' H1).
    destruct (push rd a i l (m_size l) r); cbn [omap bind]; try reflexivity. destruct keep; reflexivity.
  - rewrite (push_new_map h rd rd' H1). destruct (push_new rd a i n); reflexivity.
Qed.
Lemma tm_done_map (a : acc K V R) : tm_done (amap h a) = omap (tmap h) (tm_done a).
Proof. unfold tm_done. cbn [a_ul amap]. destruct (a_ul a); [reflexivity|]. rewrite finish_map. destruct (finish a); reflexivity. Qed.
Lemma tm_lone_map st n : tm_lone rdef' rd' st lop' n = omap (tmap h) (tm_lone rdef rd st lop n).
Proof. apply m_transform_map; assumption. Qed.
Lemma tm_rone_map n : tm_rone rdef' rd' rop' n = omap (tmap h) (tm_rone rdef rd rop n).
Proof. unfold tm_rone. rewrite (m_transmute_map h rdef rd rdef' rd' H0 H1 rop rop' HR). destruct (m_transmute rdef rd rop n); reflexivity. Qed.

End TM.

Section MT.
Context {E : Env} {K V L W R R' : Type} {KK : Key K} {KL : Key L}.
Context (h : R -> R') (rdef : R) (rd : R -> R -> R) (rdef' : R') (rd' : R' -> R' -> R').
Context (H0 : h rdef = rdef') (H1 : forall a b, h (rd a b) = rd' (h a) (h b)).
Context (both : transform_op ((K * V) * (L * W)) W R) (lop : transmute_op (K * V) L W R) (rop : transform_op (L * W) W R).
Context (both' : transform_op ((K * V) * (L * W)) W R') (lop' : transmute_op (K * V) L W R') (rop' : transform_op (L * W) W R').
Context (HB : tover h both both') (HL : mover h lop lop') (HR : tover h rop rop').

Lemma mt_apart_map a b d : mt_apart rd' lop' rop' a b d = omap (tmap h) (mt_apart rd lop rop a b d).
Proof.
  unfold mt_apart. rewrite (n_transform_map h rd rd' H1 rop rop' HR), (n_transmute_map h rd rd' H1 lop lop' HL).
  destruct (two_flags _ _ d) as [[lf rf]| |]; cbn [bind omap]; try reflexivity.
  rewrite tout_tmap, nnode_nmap, tred_tmap, nred_nmap, <- H1.
  destruct (nnode (n_transmute rd lop a)) as [y|], (tout (next_mnode b) (n_transform rd rop b)) as [x|]; cbn [omap]; rewrite ?t_with_tmap, ?n_with_nmap; try reflexivity.
  destruct (cnode_lift y lf x rf); reflexivity.
Qed.
Lemma mt_s_impl_map s e : mt_s_impl rd' both' lop' rop' s e = tmap h (mt_s_impl rd both lop rop s e).
Proof.
  unfold mt_s_impl. rewrite (tover_call h both both' _ HB), (tover_call h rop rop' _ HR), (mover_call h lop lop' _ HL).
  destruct (keqb _ _); [destruct (tcall both _); reflexivity|].
  destruct (mcall lop _), (tcall rop _); cbn; rewrite ?H1; reflexivity.
Qed.
Lemma mt_hit_map (s : snode L W) v n : mt_hit rd' s (vmap h v) (nmap h n) = nmap h (mt_hit rd s v n).
Proof. destruct v; cbn [mt_hit vmap]; rewrite nred_nmap, <- H1, ?n_cons_nmap, ?n_with_nmap; reflexivity. Qed.
Lemma mt_miss_map (s : snode L W) v t : mt_miss rd' s (kmap h v) (tmap h t) = tmap h (mt_miss rd s v t).
Proof.
  destruct v; cbn [mt_miss kmap]; [rewrite tred_tmap, <- H1, t_cons_tmap; reflexivity|].
  destruct t as [z|n]; cbn [tmap nmap]; [rewrite H1; reflexivity|]. rewrite nred_nmap, <- H1, n_with_nmap. reflexivity.
Qed.
Lemma mt_ls_impl_map l s : mt_ls_impl rd' both' lop' rop' l s = tmap h (mt_ls_impl rd both lop rop l s).
Proof.
  induction l as [k v n IH z|k v s' z]; cbn [mt_ls_impl]; destruct (keqb _ _);
    rewrite ?(tover_call h both both' _ HB), ?(mover_call h lop lop' _ HL), ?(n_transmute_map h rd rd' H1 lop lop' HL), ?IH, ?mt_s_impl_map,
      ?mt_hit_map, ?mt_miss_map; reflexivity.
Qed.
Lemma mt_lsnode_map l s d : mt_lsnode rd' both' lop' rop' l s d = omap (tmap h) (mt_lsnode rd both lop rop l s d).
Proof. unfold mt_lsnode. destruct (_ =? _); [rewrite mt_ls_impl_map; reflexivity|apply mt_apart_map]. Qed.
Lemma mt_snode_map s s' d : mt_snode rd' both' lop' rop' s s' d = omap (tmap h) (mt_snode rd both lop rop s s' d).
Proof. unfold mt_snode. destruct (_ =? _); [rewrite mt_s_impl_map; reflexivity|apply mt_apart_map]. Qed.

Lemma mt_add_map keep a i (ol : option (mnode K V)) (or : option (mnode L W)) t :
  mt_add rd' keep (amap h a) i ol or (tmap h t) = omap (amap h) (mt_add rd keep a i ol or t).
Proof.
  destruct t as [r|n]; cbn [mt_add tmap].
  - destruct or as [l|]; cbn [unwrap bind]; try reflexivity. rewrite (push_map h rd rd' H1).
    destruct (push rd a i l (m_size l) r); cbn [omap bind]; try reflexivity. destruct keep; reflexivity.
  - rewrite (push_new_map h rd rd' H1). destruct (push_new rd a i n); reflexivity.
Qed.
Lemma mt_done_map (a : acc L W R) : mt_done (amap h a) = omap (tmap h) (mt_done a).
Proof. unfold mt_done. cbn [a_ur amap]. destruct (a_ur a); [reflexivity|]. rewrite finish_map. destruct (finish a); reflexivity. Qed.
Lemma mt_lone_map n : mt_lone rdef' rd' lop' n = omap (tmap h) (mt_lone rdef rd lop n).
Proof. unfold mt_lone. rewrite (m_transmute_map h rdef rd rdef' rd' H0 H1 lop lop' HL). destruct (m_transmute rdef rd lop n); reflexivity. Qed.
Lemma mt_rone_map st n : mt_rone rdef' rd' st rop' n = omap (tmap h) (mt_rone rdef rd st rop n).
Proof. apply m_transform_map; assumption. Qed.

End MT.

Section MM.
Context {E : Env} {K V L W S X R R' : Type} {KK : Key K} {KL : Key L}.
Context (h : R -> R') (rdef : R) (rd : R -> R -> R) (rdef' : R') (rd' : R' -> R' -> R').
Context (H0 : h rdef = rdef') (H1 : forall a b, h (rd a b) = rd' (h a) (h b)).
Context (both : transmute_op ((K * V) * (L * W)) S X R) (lop : transmute_op (K * V) S X R) (rop : transmute_op (L * W) S X R).
Context (both' : transmute_op ((K * V) * (L * W)) S X R') (lop' : transmute_op (K * V) S X R') (rop' : transmute_op (L * W) S X R').
Context (HB : mover h both both') (HL : mover h lop lop') (HR : mover h rop rop').

Lemma mm_apart_map a b d : mm_apart rd' lop' rop' a b d = omap (nmap h) (mm_apart rd lop rop a b d).
Proof.
  unfold mm_apart. rewrite (n_transmute_map h rd rd' H1 rop rop' HR), (n_transmute_map h rd rd' H1 lop lop' HL).
  destruct (two_flags _ _ d) as [[lf rf]| |]; cbn [bind omap]; try reflexivity.
  rewrite !nnode_nmap, !nred_nmap, <- H1.
  destruct (nnode (n_transmute rd lop a)) as [y|], (nnode (n_transmute rd rop b)) as [x|]; cbn [omap]; rewrite ?n_with_nmap; try reflexivity.
  destruct (cnode_lift y lf x rf); reflexivity.
Qed.
Lemma mm_values_map e e' : mm_values rd' both' lop' rop' e e' = nmap h (mm_values rd both lop rop e e').
Proof.
  unfold mm_values. rewrite (mover_call h both both' _ HB), (mover_call h rop rop' _ HR), (mover_call h lop lop' _ HL).
  destruct (keqb _ _); [destruct (mcall both _); reflexivity|].
  destruct (mcall lop _), (mcall rop _); cbn; rewrite ?H1; reflexivity.
Qed.
Lemma mm_l_impl_map l : forall rights,
  mm_l_impl rd' both' lop' rop' l rights = (let (t, rest) := mm_l_impl rd both lop rop l rights in (nmap h t, rest)).
Proof.
  induction l as [k v n IH z|k v s z]; intros rights; cbn [mm_l_impl].
  - rewrite IH. destruct (mm_l_impl rd both lop rop n rights) as [next rest].
    destruct (take_key _ rest) as [[e rest']|]; rewrite ?(mover_call h both both' _ HB), ?(mover_call h lop lop' _ HL);
      rewrite (l_transmute_result_map h rd rd' H1); reflexivity.
  - destruct (take_key (s_key s) rights) as [[e rest]|]; rewrite ?mm_values_map, ?(s_transmute_map h lop lop' HL).
    + destruct (take_key _ rest) as [[e' rest']|]; rewrite ?(mover_call h both both' _ HB), ?(mover_call h lop lop' _ HL);
      rewrite (l_transmute_result_map h rd rd' H1); reflexivity.
    + destruct (take_key _ rights) as [[e' rest']|]; rewrite ?(mover_call h both both' _ HB), ?(mover_call h lop lop' _ HL);
      rewrite (l_transmute_result_map h rd rd' H1); reflexivity.
Qed.
Lemma mm_rest_map rights : forall next, mm_rest rd' rop' rights (nmap h next) = nmap h (mm_rest rd rop rights next).
Proof.
  induction rights as [|e rights IH]; intros next; cbn [mm_rest]; [reflexivity|]. rewrite (mover_call h rop rop' _ HR).
  destruct (mcall rop e); cbn [kmap]; rewrite nred_nmap, <- H1, ?n_cons_nmap, ?n_with_nmap; apply IH.
Qed.
Lemma mm_lnode_map l r d : mm_lnode rd' both' lop' rop' l r d = omap (nmap h) (mm_lnode rd both lop rop l r d).
Proof.
  unfold mm_lnode. destruct (_ =? _); [|apply mm_apart_map].
  destruct (rights_loop _ _ _ _) as [rights| |]; cbn [bind omap]; try reflexivity. rewrite mm_l_impl_map.
  destruct (mm_l_impl rd both lop rop l rights) as [next rest]. cbn [omap]. f_equal. apply mm_rest_map.
Qed.
Lemma mm_ls_impl_map l s : mm_ls_impl rd' both' lop' rop' l s = nmap h (mm_ls_impl rd both lop rop l s).
Proof.
  induction l as [k v n IH z|k v s' z]; cbn [mm_ls_impl]; destruct (keqb _ _);
    rewrite ?(mover_call h both both' _ HB), ?(mover_call h lop lop' _ HL), ?(n_transmute_map h rd rd' H1 lop lop' HL), ?IH, ?mm_values_map;
    apply (l_transmute_result_map h rd rd' H1).
Qed.
Lemma mm_lsnode_map l s d : mm_lsnode rd' both' lop' rop' l s d = omap (nmap h) (mm_lsnode rd both lop rop l s d).
Proof. unfold mm_lsnode. destruct (_ =? _); [rewrite mm_ls_impl_map; reflexivity|apply mm_apart_map]. Qed.
Lemma mm_snode_map s s' d : mm_snode rd' both' lop' rop' s s' d = omap (nmap h) (mm_snode rd both lop rop s s' d).
Proof. unfold mm_snode. destruct (_ =? _); [rewrite mm_values_map; reflexivity|apply mm_apart_map]. Qed.
Lemma mm_add_map a i (ol : option (mnode K V)) (or : option (mnode L W)) (n : nres S X R) :
  mm_add rd' (amap h a) i ol or (nmap h n) = omap (amap h) (mm_add rd a i ol or n).
Proof. apply (push_new_map h rd rd' H1). Qed.

End MM.

Section TT.
Context {E : Env} {K V R R' : Type} {KK : Key K}.
Context (h : R -> R') (rdef : R) (rd : R -> R -> R) (rdef' : R') (rd' : R' -> R' -> R').
Context (H0 : h rdef = rdef') (H1 : forall a b, h (rd a b) = rd' (h a) (h b)).
Context (both : joint_op (K * V) V R) (lop rop : transform_op (K * V) V R).
Context (both' : joint_op (K * V) V R') (lop' rop' : transform_op (K * V) V R').
Context (HB : jover h both both') (HL : tover h lop lop') (HR : tover h rop rop').

Lemma t_left_map (t : tres K V R) : t_left (tmap h t) = jmap h (t_left t).
Proof. destruct t; reflexivity. Qed.
Lemma t_right_map (t : tres K V R) : t_right (tmap h t) = jmap h (t_right t).
Proof. destruct t; reflexivity. Qed.
Lemma jres_flip_map (t : jres K V R) : jres_flip (jmap h t) = jmap h (jres_flip t).
Proof. destruct t; reflexivity. Qed.
Lemma next_nres_map (n : lnext K V) r : next_nres n (h r) = nmap h (next_nres n r).
Proof. destruct n; reflexivity. Qed.
Lemma v_left_map (v : vres V R) : v_left (vmap h v) = bmap h (v_left v).
Proof. destruct v; reflexivity. Qed.

Lemma tt_apart_map a b d : tt_apart rd' lop' rop' a b d = omap (jmap h) (tt_apart rd lop rop a b d).
Proof.
  unfold tt_apart. rewrite (n_transform_map h rd rd' H1 lop lop' HL), (n_transform_map h rd rd' H1 rop rop' HR).
  destruct (two_flags _ _ d) as [[lf rf]| |]; cbn [bind omap]; try reflexivity.
  rewrite !tout_tmap, !tred_tmap, <- H1.
  destruct (tout (next_mnode a) (n_transform rd lop a)) as [x|], (tout (next_mnode b) (n_transform rd rop b)) as [y|]; cbn [omap]; rewrite ?t_with_tmap, ?t_left_map, ?t_right_map; try reflexivity.
  destruct (cnode_lift x lf y rf); reflexivity.
Qed.
Lemma tt_s_impl_map s e : tt_s_impl rd' both' lop' rop' s e = jmap h (tt_s_impl rd both lop rop s e).
Proof.
  unfold tt_s_impl. rewrite (jover_call h both both' _ _ HB), (tover_call h lop lop' _ HL), (tover_call h rop rop' _ HR).
  destruct (keqb _ _); [destruct (jcall both _ _); reflexivity|].
  destruct (tcall lop _), (tcall rop _); cbn; rewrite ?H1; reflexivity.
Qed.
Lemma jj_map (l : lnode K V) b that j : jj rd' l (bmap h b) that (jmap h j) = omap (jmap h) (jj rd l b that j).
Proof.
  destruct b; cbn [jj bmap]; rewrite jred_jmap, <- H1; destruct j as [z|z|z|n]; cbn [jmap omap]; try reflexivity;
    rewrite ?n_cons_nmap, ?n_with_nmap, ?next_nres_map; try reflexivity; destruct that as [e|]; cbn [unwrap bind omap]; try reflexivity;
    destruct n; cbn [nmap]; reflexivity.
Qed.
Lemma jt_map (l : lnode K V) b s t : jt rd' l (bmap h b) s (tmap h t) = jmap h (jt rd l b s t).
Proof.
  destruct b; cbn [jt bmap]; rewrite tred_tmap, <- H1; destruct t as [z|n]; cbn [tmap jmap]; try reflexivity;
    rewrite ?n_cons_nmap, ?n_with_nmap, ?next_nres_map; try reflexivity; destruct n; reflexivity.
Qed.
Lemma tj_map (l : lnode K V) v s j : tj rd' l (vmap h v) s (jmap h j) = jmap h (tj rd l v s j).
Proof.
  destruct v; cbn [tj vmap]; rewrite jred_jmap, <- H1; destruct j as [z|z|z|n]; cbn [jmap]; try reflexivity;
    rewrite ?n_cons_nmap, ?n_with_nmap, ?next_nres_map; reflexivity.
Qed.
Lemma tt_l_impl_map l : forall rights,
  tt_l_impl rd' both' lop' rop' l rights = omap (fun p => (jmap h (fst p), snd p)) (tt_l_impl rd both lop rop l rights).
Proof.
  assert (HS : forall (this : lnode K V) k rights that next,
    (let (result, rights) :=
       match take_key k rights with
       | Some (e, rights) => (jcall both' (l_key this, l_value this) e, rights)
       | None => (v_left (tcall lop' (l_key this, l_value this)), rights)
       end in
     let* t := jj rd' this result that (jmap h next) in Ret (t, rights)) =
    omap (fun p => (jmap h (fst p), snd p))
    (let (result, rights) :=
       match take_key k rights with
       | Some (e, rights) => (jcall both (l_key this, l_value this) e, rights)
       | None => (v_left (tcall lop (l_key this, l_value this)), rights)
       end in
     let* t := jj rd this result that next in Ret (t, rights))).
  { intros this k rights that next. destruct (take_key k rights) as [[e rest]|];
      rewrite ?(jover_call h both both' _ _ HB), ?(tover_call h lop lop' _ HL), ?v_left_map, jj_map; destruct (jj rd _ _ _ _); reflexivity. }
  induction l as [k v n IH z|k v s z]; intros rights; cbn [tt_l_impl].
  - rewrite IH. destruct (tt_l_impl rd both lop rop n rights) as [[next rest]| |]; cbn [bind omap fst snd]; try reflexivity. apply HS.
  - destruct (take_key (s_key s) rights) as [[e rest]|]; cbn [bind].
    + rewrite tt_s_impl_map. apply HS.
    + rewrite (s_transform_map h lop lop' HL), t_left_map. apply HS.
Qed.
Lemma tt_rest_map l rights : forall next, tt_rest rd' rop' l rights (jmap h next) = omap (jmap h) (tt_rest rd rop l rights next).
Proof.
  induction rights as [|e rights IH]; intros next; cbn [tt_rest]; [reflexivity|]. rewrite (tover_call h rop rop' _ HR).
  destruct (tcall rop e), next; cbn [vmap jmap bind omap]; try reflexivity; rewrite ?nred_nmap, <- H1, ?n_cons_nmap, ?n_with_nmap; rewrite <- IH; reflexivity.
Qed.
Lemma tt_lnode_map l r d : tt_lnode rd' both' lop' rop' l r d = omap (jmap h) (tt_lnode rd both lop rop l r d).
Proof.
  unfold tt_lnode. destruct (_ =? _); [|apply tt_apart_map].
  destruct (rights_loop _ _ _ _) as [rights| |]; cbn [bind omap]; try reflexivity. rewrite tt_l_impl_map.
  destruct (tt_l_impl rd both lop rop l rights) as [[next rest]| |]; cbn [omap bind fst snd]; try reflexivity. apply tt_rest_map.
Qed.
Lemma tt_ls_impl_map l s : tt_ls_impl rd' both' lop' rop' l s = jmap h (tt_ls_impl rd both lop rop l s).
Proof.
  induction l as [k v n IH z|k v s' z]; cbn [tt_ls_impl]; destruct (keqb _ _);
    rewrite ?(jover_call h both both' _ _ HB), ?(tover_call h lop lop' _ HL), ?(n_transform_map h rd rd' H1 lop lop' HL), ?IH, ?tt_s_impl_map,
      ?jt_map, ?tj_map; reflexivity.
Qed.
Lemma tt_lsnode_map l s d : tt_lsnode rd' both' lop' rop' l s d = omap (jmap h) (tt_lsnode rd both lop rop l s d).
Proof. unfold tt_lsnode. destruct (_ =? _); [rewrite tt_ls_impl_map; reflexivity|apply tt_apart_map]. Qed.
Lemma tt_snode_map s s' d : tt_snode rd' both' lop' rop' s s' d = omap (jmap h) (tt_snode rd both lop rop s s' d).
Proof. unfold tt_snode. destruct (_ =? _); [rewrite tt_s_impl_map; reflexivity|apply tt_apart_map]. Qed.

Lemma tt_add_map a i (ol or : option (mnode K V)) t :
  tt_add rd' (amap h a) i ol or (jmap h t) = omap (amap h) (tt_add rd a i ol or t).
Proof.
  destruct t as [r|r|r|n]; cbn [tt_add jmap].
  - destruct ol as [l|]; cbn [unwrap bind]; try reflexivity. apply (push_map h rd rd' H1).
  - destruct ol as [l|]; cbn [unwrap bind]; try reflexivity. rewrite (push_map h rd rd' H1).
    destruct (push rd a i l (m_size l) r); reflexivity.
  - destruct or as [l|]; cbn [unwrap bind]; try reflexivity. rewrite (push_map h rd rd' H1).
    destruct (push rd a i l (m_size l) r); reflexivity.
  - rewrite (push_new_map h rd rd' H1). destruct (push_new rd a i n); reflexivity.
Qed.
Lemma tt_done_map (a : acc K V R) : tt_done (amap h a) = omap (jmap h) (tt_done a).
Proof.
  unfold tt_done. cbn [a_ul a_ur amap]. destruct (a_ul a), (a_ur a); try reflexivity. rewrite finish_map. destruct (finish a); reflexivity.
Qed.
Lemma tt_lone_map st n : tt_lone rdef' rd' st lop' n = omap (jmap h) (tt_lone rdef rd st lop n).
Proof.
  unfold tt_lone. rewrite (m_transform_map h rdef rd rdef' rd' H0 H1 lop lop' HL).
  destruct (m_transform rdef rd st lop n) as [t| |]; cbn [omap bind]; rewrite ?t_left_map; reflexivity.
Qed.
Lemma tt_rone_map st n : tt_rone rdef' rd' st rop' n = omap (jmap h) (tt_rone rdef rd st rop n).
Proof.
  unfold tt_rone. rewrite (m_transform_map h rdef rd rdef' rd' H0 H1 rop rop' HR).
  destruct (m_transform rdef rd st rop n) as [t| |]; cbn [omap bind]; rewrite ?t_right_map; reflexivity.
Qed.
Lemma tt_short_map : tt_short both' lop' rop' = option_map (jmap h) (tt_short both lop rop).
Proof.
  unfold tt_short. destruct both, both'; cbn in HB; try contradiction; subst; try reflexivity;
    destruct lop, lop'; cbn in HL; try contradiction; subst; try reflexivity;
    destruct rop, rop'; cbn in HR; try contradiction; subst; reflexivity.
Qed.

End TT.

(** * The maps *)
Section Whole.
Context {E : Env} {K V L W R R' : Type} {KK : Key K} {KL : Key L}.
Context (h : R -> R') (rdef : R) (rd : R -> R -> R) (rdef' : R') (rd' : R' -> R' -> R') (st : strategy).
Context (H0 : h rdef = rdef') (H1 : forall a b, h (rd a b) = rd' (h a) (h b)).

Lemma nres_trie_map (n : nres K V R) : nres_trie (nmap h n) = (fst (nres_trie n), h (snd (nres_trie n))).
Proof. destruct n; reflexivity. Qed.

Lemma map_transform_map op op' (m : trie K V) : tover h op op' ->
  map_transform rdef' rd' st op' m = omap (fun p => (fst (fst p), h (snd (fst p)), snd p)) (map_transform rdef rd st op m).
Proof.
  intros HO. unfold map_transform. rewrite (m_transform_map h rdef rd rdef' rd' H0 H1 op op' HO).
  destruct (m_transform rdef rd st op m) as [[r|n]| |]; cbn [omap bind tmap fst snd]; try reflexivity. rewrite nres_trie_map. reflexivity.
Qed.
Lemma map_transmute_map {S X} (op : transmute_op (K * V) S X R) op' (m : trie K V) : mover h op op' ->
  map_transmute rdef' rd' op' m = omap (fun p => (fst p, h (snd p))) (map_transmute rdef rd op m).
Proof.
  intros HO. unfold map_transmute. rewrite (m_transmute_map h rdef rd rdef' rd' H0 H1 op op' HO).
  destruct (m_transmute rdef rd op m) as [n| |]; cbn [omap bind]; try reflexivity. destruct n; reflexivity.
Qed.

End Whole.

Section Leaves.
Context {E : Env} {K V L W R R' : Type} {KK : Key K} {KL : Key L}.
Context (h : R -> R') (rdef : R) (rd : R -> R -> R) (rdef' : R') (rd' : R' -> R' -> R') (st : strategy).
Context (H0 : h rdef = rdef') (H1 : forall a b, h (rd a b) = rd' (h a) (h b)).

Lemma tm_leaf_map both lop rop both' lop' rop' : tover h both both' -> tover h lop lop' -> mover h rop rop' ->
  forall (a : lnext K V) (b : lnext L W) d, tm_leaf rd' both' lop' rop' a b d = omap (tmap h) (tm_leaf rd both lop rop a b d).
Proof.
  intros HB HL HR [l|s] [r|s'] d; cbn [tm_leaf].
  - apply tm_lnode_map; assumption.
  - apply tm_lsnode_map; assumption.
  - apply mt_lsnode_map; try assumption. apply tover_flip; assumption.
  - apply tm_snode_map; assumption.
Qed.
Lemma mt_leaf_map both lop rop both' lop' rop' : tover h both both' -> mover h lop lop' -> tover h rop rop' ->
  forall (a : lnext K V) (b : lnext L W) d, mt_leaf rd' both' lop' rop' a b d = omap (tmap h) (mt_leaf rd both lop rop a b d).
Proof.
  intros HB HL HR [l|s] [r|s'] d; cbn [mt_leaf].
  - apply tm_lnode_map; try assumption. apply tover_flip; assumption.
  - apply mt_lsnode_map; assumption.
  - apply tm_lsnode_map; try assumption. apply tover_flip; assumption.
  - apply mt_snode_map; assumption.
Qed.
Lemma mm_leaf_map {S X} (both : transmute_op ((K * V) * (L * W)) S X R) lop rop both' lop' rop' :
  mover h both both' -> mover h lop lop' -> mover h rop rop' ->
  forall (a : lnext K V) (b : lnext L W) d, mm_leaf rd' both' lop' rop' a b d = omap (nmap h) (mm_leaf rd both lop rop a b d).
Proof.
  intros HB HL HR [l|s] [r|s'] d; cbn [mm_leaf].
  - apply mm_lnode_map; assumption.
  - apply mm_lsnode_map; assumption.
  - apply mm_lsnode_map; try assumption. apply mover_flip; assumption.
  - apply mm_snode_map; assumption.
Qed.
End Leaves.

Section Trees.
Context {E : Env} {K V L W R R' : Type} {KK : Key K} {KL : Key L}.
Context (h : R -> R') (rdef : R) (rd : R -> R -> R) (rdef' : R') (rd' : R' -> R' -> R') (st : strategy).
Context (H0 : h rdef = rdef') (H1 : forall a b, h (rd a b) = rd' (h a) (h b)).

Lemma tm_tree_leaf_map both lop rop both' lop' rop' : tover h both both' -> tover h lop lop' -> mover h rop rop' ->
  forall (r : lnext L W) (n : mnode K V) d, tm_tree_leaf rdef' rd' st both' lop' rop' r n d = omap (tmap h) (tm_tree_leaf rdef rd st both lop rop r n d).
Proof.
  intros HB HL HR r n d. apply m_leaf_map with (h := h); try assumption.
  - intros. apply tm_add_map. assumption.
  - intros m. apply tm_lone_map; assumption.
  - intros m. apply tm_rone_map; assumption.
  - intros a. apply tm_done_map.
  - apply tm_leaf_map; assumption.
Qed.
Lemma mt_tree_leaf_map both lop rop both' lop' rop' : tover h both both' -> mover h lop lop' -> tover h rop rop' ->
  forall (r : lnext L W) (n : mnode K V) d, mt_tree_leaf rdef' rd' st both' lop' rop' r n d = omap (tmap h) (mt_tree_leaf rdef rd st both lop rop r n d).
Proof.
  intros HB HL HR r n d. apply m_leaf_map with (h := h); try assumption.
  - intros. apply mt_add_map. assumption.
  - intros m. apply mt_lone_map; assumption.
  - intros m. apply mt_rone_map; assumption.
  - intros a. apply mt_done_map.
  - apply mt_leaf_map; assumption.
Qed.
Lemma mm_tree_leaf_map {S X} (both : transmute_op ((K * V) * (L * W)) S X R) lop rop both' lop' rop' :
  mover h both both' -> mover h lop lop' -> mover h rop rop' ->
  forall (r : lnext L W) (n : mnode K V) d, mm_tree_leaf rdef' rd' both' lop' rop' r n d = omap (nmap h) (mm_tree_leaf rdef rd both lop rop r n d).
Proof.
  intros HB HL HR r n d. apply m_leaf_map with (h := h); try assumption.
  - intros. apply mm_add_map. assumption.
  - intros m. apply m_transmute_map; assumption.
  - intros m. apply m_transmute_map; assumption.
  - intros a. apply finish_map.
  - apply mm_leaf_map; assumption.
Qed.
End Trees.

Section Ends.
Context {E : Env} {K V L W R R' : Type} {KK : Key K} {KL : Key L}.
Context (h : R -> R') (rdef : R) (rd : R -> R -> R) (rdef' : R') (rd' : R' -> R' -> R') (st : strategy).
Context (H0 : h rdef = rdef') (H1 : forall a b, h (rd a b) = rd' (h a) (h b)).

Lemma map_tm_map both lop rop both' lop' rop' (m : trie K V) (r : trie L W) :
  tover h both both' -> tover h lop lop' -> mover h rop rop' ->
  map_tm rdef' rd' st both' lop' rop' m r = omap (fun p => (fst (fst p), h (snd (fst p)), snd p)) (map_tm rdef rd st both lop rop m r).
Proof.
  intros HB HL HR. unfold map_tm.
  replace (m_tm rdef' rd' st both' lop' rop' m r 0) with (omap (tmap h) (m_tm rdef rd st both lop rop m r 0)).
  { destruct (m_tm _ _ _ _ _ _ _ _ _) as [[z|n]| |]; cbn [omap bind tmap fst snd]; try reflexivity. rewrite nres_trie_map. reflexivity. }
  symmetry. apply (m_joint_map h (tmap h) rdef rd) with (short := None); try assumption.
  - intros. apply tm_add_map. assumption.
  - intros n. apply tm_lone_map; assumption.
  - intros n. apply tm_rone_map; assumption.
  - intros a. apply tm_done_map.
  - apply tm_leaf_map; assumption.
  - apply tm_tree_leaf_map; assumption.
  - apply mt_tree_leaf_map; try assumption. apply tover_flip; assumption.
Qed.
Lemma map_mt_map both lop rop both' lop' rop' (m : trie K V) (r : trie L W) :
  tover h both both' -> mover h lop lop' -> tover h rop rop' ->
  map_mt rdef' rd' st both' lop' rop' m r = omap (fun p => (fst (fst p), h (snd (fst p)), snd p)) (map_mt rdef rd st both lop rop m r).
Proof.
  intros HB HL HR. unfold map_mt.
  replace (m_mt rdef' rd' st both' lop' rop' m r 0) with (omap (tmap h) (m_mt rdef rd st both lop rop m r 0)).
  { destruct (m_mt _ _ _ _ _ _ _ _ _) as [[z|n]| |]; cbn [omap bind tmap fst snd]; try reflexivity. rewrite nres_trie_map. reflexivity. }
  symmetry. apply (m_joint_map h (tmap h) rdef rd) with (short := None); try assumption.
  - intros. apply mt_add_map. assumption.
  - intros n. apply mt_lone_map; assumption.
  - intros n. apply mt_rone_map; assumption.
  - intros a. apply mt_done_map.
  - apply mt_leaf_map; assumption.
  - apply mt_tree_leaf_map; assumption.
  - apply tm_tree_leaf_map; try assumption. apply tover_flip; assumption.
Qed.
Lemma map_mm_map {S X} {KS : Key S} (both : transmute_op ((K * V) * (L * W)) S X R) lop rop both' lop' rop' (m : trie K V) (r : trie L W) :
  mover h both both' -> mover h lop lop' -> mover h rop rop' ->
  map_mm rdef' rd' both' lop' rop' m r = omap (fun p => (fst p, h (snd p))) (map_mm rdef rd both lop rop m r).
Proof.
  intros HB HL HR. unfold map_mm.
  replace (m_mm rdef' rd' both' lop' rop' m r 0) with (omap (nmap h) (m_mm rdef rd both lop rop m r 0)).
  { destruct (m_mm _ _ _ _ _ _ _ _) as [n| |]; cbn [omap bind]; try reflexivity. destruct n; reflexivity. }
  symmetry. apply (m_joint_map h (nmap h) rdef rd) with (short := None); try assumption.
  - intros. apply mm_add_map. assumption.
  - intros n. apply m_transmute_map; assumption.
  - intros n. apply m_transmute_map; assumption.
  - intros a. apply finish_map.
  - apply mm_leaf_map; assumption.
  - apply mm_tree_leaf_map; assumption.
  - apply mm_tree_leaf_map; try assumption. apply mover_flip; assumption.
Qed.
End Ends.

Section TTEnds.
Context {E : Env} {K V R R' : Type} {KK : Key K}.
Context (h : R -> R') (rdef : R) (rd : R -> R -> R) (rdef' : R') (rd' : R' -> R' -> R') (st : strategy).
Context (H0 : h rdef = rdef') (H1 : forall a b, h (rd a b) = rd' (h a) (h b)).

Lemma tt_leaf_map both lop rop both' lop' rop' : jover h both both' -> tover h lop lop' -> tover h rop rop' ->
  forall (a b : lnext K V) d, tt_leaf rd' both' lop' rop' a b d = omap (jmap h) (tt_leaf rd both lop rop a b d).
Proof.
  intros HB HL HR [l|s] [r|s'] d; cbn [tt_leaf].
  - apply tt_lnode_map; assumption.
  - apply tt_lsnode_map; assumption.
  - rewrite (tt_lsnode_map h rd rd' H1 (jflip both) rop lop (jflip both') rop' lop'); [|apply jover_flip| |]; try assumption.
    destruct (tt_lsnode rd _ _ _ _ _ _); cbn [omap bind]; rewrite ?jres_flip_map; reflexivity.
  - apply tt_snode_map; assumption.
Qed.
Lemma tt_tree_leaf_map both lop rop both' lop' rop' : jover h both both' -> tover h lop lop' -> tover h rop rop' ->
  forall (r : lnext K V) (n : mnode K V) d, tt_tree_leaf rdef' rd' st both' lop' rop' r n d = omap (jmap h) (tt_tree_leaf rdef rd st both lop rop r n d).
Proof.
  intros HB HL HR r n d. apply m_leaf_map with (h := h); try assumption.
  - intros. apply tt_add_map. assumption.
  - intros m. apply tt_lone_map; assumption.
  - intros m. apply tt_rone_map; assumption.
  - intros a. apply tt_done_map.
  - apply tt_leaf_map; assumption.
Qed.
Lemma map_tt_map both lop rop both' lop' rop' (m r : trie K V) :
  jover h both both' -> tover h lop lop' -> tover h rop rop' ->
  map_tt rdef' rd' st both' lop' rop' m r = omap (fun p => (fst (fst p), h (snd (fst p)), snd p)) (map_tt rdef rd st both lop rop m r).
Proof.
  intros HB HL HR. unfold map_tt.
  replace (m_tt rdef' rd' st both' lop' rop' m r 0) with (omap (jmap h) (m_tt rdef rd st both lop rop m r 0)).
  { destruct (m_tt _ _ _ _ _ _ _ _ _) as [[z|z|z|n]| |]; cbn [omap bind jmap fst snd]; try reflexivity. rewrite nres_trie_map. reflexivity. }
  symmetry. unfold m_tt. rewrite (tt_short_map h both lop rop both' lop' rop') by assumption.
  apply (m_joint_map h (jmap h) rdef rd); try assumption.
  - intros. apply tt_add_map. assumption.
  - intros n. apply tt_lone_map; assumption.
  - intros n. apply tt_rone_map; assumption.
  - intros a. apply tt_done_map.
  - apply tt_leaf_map; assumption.
  - apply tt_tree_leaf_map; assumption.
  - intros n t d. unfold tt_leaf_tree.
    rewrite (tt_tree_leaf_map (jflip both) rop lop (jflip both') rop' lop'); [|apply jover_flip| |]; try assumption.
    destruct (tt_tree_leaf rdef _ _ _ _ _ _ _ _); cbn [omap bind]; rewrite ?jres_flip_map; reflexivity.
Qed.
End TTEnds.
