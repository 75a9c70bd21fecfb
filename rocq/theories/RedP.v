(** transform_with_transformed: the reduced value depends on the reductions of
    the operations alone, not on what they do to the entries. *)
From Coq Require Import NArith Arith List Bool Lia ZifyBool ZifyN ZifyNat Permutation.
From Verif Require Import Base Words WordsP Flag FlagP Bia BiaP Node Spec Api
  Trans Transform LoopP SpecT Joint SpecJ JointT Profile Reach ReachP JointTMapP Stuck HangP.
Import ListNotations.
Open Scope N_scope.

(** Two computations that both return, return related results. *)
Definition agree {A B R} (p : A -> R) (q : B -> R) (o : outcome A) (o' : outcome B) : Prop :=
  forall t t', o = Ret t -> o' = Ret t' -> p t = q t'.

Lemma agree_ret {A B R} (p : A -> R) (q : B -> R) a b : p a = q b -> agree p q (Ret a) (Ret b).
Proof. intros H t t' [= <-] [= <-]. exact H. Qed.

Lemma agree_bind {A B A' B' R R'} (p : A -> R) (q : B -> R) (p' : A' -> R') (q' : B' -> R') o o' f g :
  agree p q o o' -> (forall a b, p a = q b -> agree p' q' (f a) (g b)) -> agree p' q' (bind o f) (bind o' g).
Proof.
  intros H Hf t t' H1 H2. destruct o as [a| |]; try discriminate. destruct o' as [b| |]; try discriminate.
  cbn [bind] in *. exact (Hf a b (H a b eq_refl eq_refl) t t' H1 H2).
Qed.

Lemma agree_bind_eq {A A' B' R'} (p' : A' -> R') (q' : B' -> R') (o : outcome A) f g :
  (forall a, agree p' q' (f a) (g a)) -> agree p' q' (bind o f) (bind o g).
Proof. intros Hf. destruct o as [a| |]; cbn [bind]; [apply Hf|intros t t' [=]..]. Qed.

Lemma bat_index_in {A} w (b : bia A) i a : bat_bit_index w b i = Ret (Ok a) -> In a (bvalues b).
Proof.
  unfold bat_bit_index. destruct (nth_bit w i) as [x|]; [|discriminate]. cbn [bind unwrap_ok].
  destruct (bit_index (bbits b) x) as [y|]; [|discriminate]. unfold nthN.
  destruct (nth_error _ _) eqn:H; [|discriminate]. intros [= <-]. eapply nth_error_In. eassumption.
Qed.

(** * Loops *)
Section Loop.
Context {E : Env} {S X R : Type}.
Context (rdef : R) (rd : R -> R -> R).
Context (step step' : acc S X R -> N -> outcome (acc S X R)).
Context (Hstep : forall a a' i, a_red a = a_red a' -> agree a_red a_red (step a i) (step' a' i)).

Lemma loop_red l : forall a a', a_red a = a_red a' -> agree a_red a_red (loop step l a) (loop step' l a').
Proof.
  induction l as [|i l IH]; intros a a' H; cbn [loop]; [apply agree_ret; assumption|].
  eapply agree_bind; [apply Hstep; exact H|]. exact IH.
Qed.

Lemma run_red st : agree a_red a_red (run_loop rdef rd st step) (run_loop rdef rd st step').
Proof.
  destruct st; cbn [run_loop]; [apply loop_red; reflexivity|]. unfold halves.
  eapply agree_bind; [apply loop_red; reflexivity|]. intros a a' Ha.
  eapply agree_bind; [apply loop_red; reflexivity|]. intros b b' Hb.
  intros t t' H1 H2.
  destruct (unwrap_ok (bit_merge (a_bits a) (a_bits b))) as [x| |]; try discriminate.
  destruct (unwrap_ok (bit_merge (a_bits a') (a_bits b'))) as [x'| |]; try discriminate.
  injection H1 as <-. injection H2 as <-. cbn [a_red]. congruence.
Qed.

Lemma push_red (a : acc S X R) i n s r a' : push rd a i n s r = Ret a' -> a_red a' = rd (a_red a) r.
Proof.
  unfold push. destruct (unwrap_ok (nth_bit fw i)) as [b| |]; try discriminate. cbn [bind].
  destruct (unwrap_ok (bit_insert (a_bits a) b)) as [c| |]; try discriminate. cbn [bind]. intros [= <-]. reflexivity.
Qed.
Lemma push_new_red (a : acc S X R) i n a' : push_new rd a i n = Ret a' -> a_red a' = rd (a_red a) (nred n).
Proof. destruct n; cbn [push_new nred]; [apply push_red..|]. intros [= <-]. reflexivity. Qed.

Lemma finish_red (a : acc S X R) n : finish a = Ret n -> nred n = a_red a.
Proof.
  unfold finish. destruct (a_values a) as [|[c|l|s] [|v vs]]; try (intros [= <-]; reflexivity);
    (match goal with |- context [unwrap_ok ?x] => destruct (unwrap_ok x) end; try discriminate; intros [= <-]; reflexivity).
Qed.

End Loop.

(** * The traversals *)
Section Traverse.
Context {E : Env} {K V L W S X R T : Type} {KL : Key L}.
Context (rdef : R) (rd : R -> R -> R) (jr : T -> R).
Context (add : acc S X R -> N -> option (mnode K V) -> option (mnode L W) -> T -> outcome (acc S X R)).
Context (Hadd : forall a i ol or t a', add a i ol or t = Ret a' -> a_red a' = rd (a_red a) (jr t)).
Context (done : acc S X R -> outcome T) (Hdone : forall a t, done a = Ret t -> jr t = a_red a).
Context (lone lone' : mnode K V -> outcome T) (Hlone : forall n, agree jr jr (lone n) (lone' n)).
Context (rone rone' : mnode L W -> outcome T) (Hrone : forall n, agree jr jr (rone n) (rone' n)).
Context (leaf leaf' : lnext K V -> lnext L W -> N -> outcome T)
  (Hleaf : forall n r d, agree jr jr (leaf n r d) (leaf' n r d)).

Lemma add_red a a' i ol or o o' : a_red a = a_red a' -> agree jr jr o o' ->
  agree a_red a_red (let* t := o in add a i ol or t) (let* t := o' in add a' i ol or t).
Proof.
  intros Ha Ho. eapply agree_bind; [exact Ho|]. intros t t' Ht x x' Hx Hx'.
  rewrite (Hadd _ _ _ _ _ _ Hx), (Hadd _ _ _ _ _ _ Hx'). congruence.
Qed.

Lemma done_red o o' : agree a_red a_red o o' -> agree jr jr (let* a := o in done a) (let* a := o' in done a).
Proof.
  intros Ho. eapply agree_bind; [exact Ho|]. intros t t' Ht x x' Hx Hx'.
  rewrite (Hdone _ _ Hx), (Hdone _ _ Hx'). assumption.
Qed.

Lemma m_leaf_red right n : forall d, agree jr jr (m_leaf rdef add lone rone done leaf right n d)
  (m_leaf rdef add lone' rone' done leaf' right n d).
Proof.
  induction n as [bits values x IH|l|s] using mnode_ind'; intros d; cbn [m_leaf]; [|apply Hleaf..].
  apply agree_bind_eq. intros f. apply agree_bind_eq. intros f'. apply done_red. apply loop_red; [|reflexivity].
  intros a a' i Ha. unfold cl_step. rewrite !bat_bit_index_map.
  destruct (bat_bit_index fw (BIA bits values x) i) as [[c|e]| |] eqn:Hc; cbn [bind]; try (intros t t' [=]; fail).
  - apply agree_bind_eq. intros bit. destruct (fl_flag f' =? bit); apply add_red; auto.
    assert (Hin : In c values).
    { exact (bat_index_in fw _ i c Hc). }
    rewrite Forall_forall in IH. apply IH. assumption.
  - apply agree_bind_eq. intros bit. destruct (fl_flag f' =? bit); [apply add_red; auto|apply agree_ret; assumption].
Qed.

Context (tree_leaf tree_leaf' : lnext L W -> mnode K V -> N -> outcome T)
  (Htl : forall r n d, agree jr jr (tree_leaf r n d) (tree_leaf' r n d)).
Context (leaf_tree leaf_tree' : lnext K V -> mnode L W -> N -> outcome T)
  (Hlt : forall n r d, agree jr jr (leaf_tree n r d) (leaf_tree' n r d)).
Context (st : strategy).

Lemma m_joint_red n : forall right d,
  agree jr jr (m_joint rdef rd add lone rone done leaf tree_leaf leaf_tree None st n right d)
    (m_joint rdef rd add lone' rone' done leaf' tree_leaf' leaf_tree' None st n right d).
Proof.
  induction n as [bits values x IH|l|s] using mnode_ind'; intros right d; destruct right as [rb|r|r]; cbn [m_joint];
    try (apply Htl); try (apply Hlt); try (apply Hleaf).
  apply done_red. apply run_red.
  intros a a' i Ha. unfold cc_step. rewrite !bat_bit_index_map.
  destruct (bat_bit_index fw (BIA bits values x) i) as [[c|e]| |] eqn:Hc; cbn [bind]; try (intros t t' [=]; fail).
  - apply agree_bind_eq. intros [r|e']; apply add_red; auto.
    assert (Hin : In c values).
    { exact (bat_index_in fw _ i c Hc). }
    rewrite Forall_forall in IH. apply IH. assumption.
  - apply agree_bind_eq. intros [r|e']; [apply add_red; auto|apply agree_ret; assumption].
Qed.

End Traverse.

(** * One map *)
Section One.
Context {E : Env} {K V R : Type}.
Context (rdef : R) (rd : R -> R -> R).
Context (f f' : K * V -> vres V R) (Hf : forall e, t_red (f e) = t_red (f' e)).

Lemma s_transform_red s : tred (s_transform (TGeneric f) s) = tred (s_transform (TGeneric f') s).
Proof.
  unfold s_transform. cbn [tcall]. specialize (Hf (s_key s, s_value s)).
  destruct (f (s_key s, s_value s)), (f' (s_key s, s_value s)); exact Hf.
Qed.

Lemma l_result_red (this : lnode K V) (o : vres V R) (n : tres K V R) :
  tred (l_transform_result rd this o n) = rd (t_red o) (tred n).
Proof.
  destruct o; destruct n as [r'|[]]; try reflexivity. cbn [l_transform_result]. destruct (l_next this); reflexivity.
Qed.

Lemma l_transform_red l : tred (l_transform rd (TGeneric f) l) = tred (l_transform rd (TGeneric f') l).
Proof.
  induction l as [k v n IH|k v s]; cbn [l_transform tcall]; rewrite !l_result_red, Hf; f_equal; [exact IH|apply s_transform_red].
Qed.

Lemma n_transform_red n : tred (n_transform rd (TGeneric f) n) = tred (n_transform rd (TGeneric f') n).
Proof. destruct n; [apply l_transform_red|apply s_transform_red]. Qed.

Lemma m_transform_red st n : agree tred tred (m_transform rdef rd st (TGeneric f) n) (m_transform rdef rd st (TGeneric f') n).
Proof.
  induction n as [bits values x IH|l|s] using mnode_ind'; cbn [m_transform].
  2: apply agree_ret; apply l_transform_red.
  2: apply agree_ret; apply s_transform_red.
  eapply agree_bind with (p := a_red) (q := a_red).
  - apply run_red. intros a a' i Ha. unfold c_transform_step. rewrite !bat_bit_index_map.
    destruct (bat_bit_index fw (BIA bits values x) i) as [[c|e]| |] eqn:Hc; cbn [bind]; try (intros t t' [=]; fail).
    2: apply agree_ret; assumption.
    assert (Hin : In c values).
    { exact (bat_index_in fw _ i c Hc). }
    rewrite Forall_forall in IH. eapply agree_bind; [exact (IH c Hin)|].
    assert (HG : forall t b b', (match t with TU r => push rd b i c (m_size c) r
        | TN n => let* a' := push_new rd b i n in Ret (set_ul a') end) = Ret b' -> a_red b' = rd (a_red b) (tred t)).
    { intros [r|n] b b' H; [eapply push_red; exact H|]. destruct (push_new rd b i n) as [y| |] eqn:Hy; try discriminate.
      injection H as <-. cbn [set_ul a_red tred]. eapply push_new_red. eassumption. }
    intros t t' Ht b b' Hb Hb'. rewrite (HG _ _ _ Hb), (HG _ _ _ Hb'). congruence.
  - assert (HG : forall a t, (if a_ul a then Ret (TU (a_red a)) else let* n := finish a in Ret (TN n)) = Ret t -> tred (K := K) (V := V) t = a_red (K := K) (V := V) (R := R) a).
    { intros a t. destruct (a_ul a); [intros [= <-]; reflexivity|]. destruct (finish a) as [y| |] eqn:Hy; try discriminate.
      intros [= <-]. cbn [tred]. eapply finish_red. eassumption. }
    intros a a' Ha t t' Ht Ht'. rewrite (HG _ _ Ht), (HG _ _ Ht'). assumption.
Qed.

End One.

(** * transform_with_transformed *)
Section TT.
Context {E : Env} {K V R : Type} {KK : Key K}.
Context (rdef : R) (rd : R -> R -> R) (st : strategy).

Lemma jres_flip_red (t : jres K V R) : jred (jres_flip t) = jred t.
Proof. destruct t; reflexivity. Qed.
Lemma t_left_red (t : tres K V R) : jred (t_left t) = tred t.
Proof. destruct t; reflexivity. Qed.
Lemma t_right_red (t : tres K V R) : jred (t_right t) = tred t.
Proof. destruct t; reflexivity. Qed.
Lemma n_with_red (n : nres K V R) z : nred (n_with n z) = z.
Proof. destruct n; reflexivity. Qed.
Lemma t_with_red (t : tres K V R) z : tred (t_with t z) = z.
Proof. destruct t; [reflexivity|]. apply n_with_red. Qed.
Lemma n_cons_red k v (n : nres K V R) z : nred (n_cons k v n z) = z.
Proof. destruct n; reflexivity. Qed.
Lemma next_nres_red (n : lnext K V) (z : R) : nred (next_nres n z) = z.
Proof. destruct n; reflexivity. Qed.
Lemma v_left_red (o : vres V R) : b_red (v_left o) = t_red o.
Proof. destruct o; reflexivity. Qed.

Lemma jj_red this (o : bres V R) that (n t : jres K V R) : jj rd this o that n = Ret t -> jred t = rd (b_red o) (jred n).
Proof.
  destruct o; destruct n as [r'|r'|r'|n]; cbn [jj];
    try (destruct n); (destruct that as [e|]; cbn [unwrap bind]; try discriminate; intros [= <-]);
    cbn [jred nred n_cons n_with b_red]; rewrite ?next_nres_red; reflexivity.
Qed.
Lemma jt_red this (o : bres V R) that (n : tres K V R) : jred (jt rd this o that n) = rd (b_red o) (tred n).
Proof. destruct o; destruct n as [r'|[]]; cbn [jt jred nred n_cons n_with b_red tred]; rewrite ?next_nres_red; reflexivity. Qed.
Lemma tj_red this (o : vres V R) that (n : jres K V R) : jred (tj rd this o that n) = rd (t_red o) (jred n).
Proof. destruct o; destruct n as [r'|r'|r'|[]]; cbn [tj jred nred n_cons n_with t_red]; rewrite ?next_nres_red; reflexivity. Qed.

Section Ops.
Context (both both' : joint_op (K * V) V R) (f f' h h' : K * V -> vres V R).
Context (Hb : forall e e', b_red (jcall both e e') = b_red (jcall both' e e')).
Context (Hf : forall e, t_red (f e) = t_red (f' e)) (Hh : forall e, t_red (h e) = t_red (h' e)).

Lemma tt_apart_red this right d :
  agree jred jred (tt_apart rd (TGeneric f) (TGeneric h) this right d) (tt_apart rd (TGeneric f') (TGeneric h') this right d).
Proof.
  unfold tt_apart. apply agree_bind_eq. intros [lf rf].
  set (z := rd _ _). set (z' := rd _ _).
  assert (Hz : z = z') by (unfold z, z'; rewrite (n_transform_red rd f f' Hf), (n_transform_red rd h h' Hh); reflexivity).
  assert (HG : forall (l r : tres K V R) y t, (match tout (next_mnode this) l, tout (next_mnode right) r with
      | Some a, Some b => let* c := cnode_lift a lf b rf in Ret (JN (NRC c y))
      | Some _, None => Ret (t_left (t_with l y))
      | None, _ => Ret (t_right (t_with r y)) end) = Ret t -> jred t = y).
  { intros l r y t. destruct (tout (next_mnode this) l), (tout (next_mnode right) r).
    - destruct (cnode_lift _ _ _ _); try discriminate. intros [= <-]. reflexivity.
    - intros [= <-]. rewrite t_left_red, t_with_red. reflexivity.
    - intros [= <-]. rewrite t_right_red, t_with_red. reflexivity.
    - intros [= <-]. rewrite t_right_red, t_with_red. reflexivity. }
  intros t t' Ht Ht'. rewrite (HG _ _ _ _ Ht), (HG _ _ _ _ Ht'). exact Hz.
Qed.

Lemma tt_s_impl_red this right :
  jred (tt_s_impl rd both (TGeneric f) (TGeneric h) this right) = jred (tt_s_impl rd both' (TGeneric f') (TGeneric h') this right).
Proof.
  unfold tt_s_impl. destruct (keqb (s_key this) (s_key right)).
  - specialize (Hb (s_key this, s_value this) (s_key right, s_value right)).
    destruct (jcall both _ _), (jcall both' _ _); exact Hb.
  - cbn [tcall]. specialize (Hf (s_key this, s_value this)). specialize (Hh (s_key right, s_value right)).
    destruct (f _), (h _), (f' _), (h' _); cbn [t_red jred nred] in *; congruence.
Qed.

Lemma tt_l_impl_red this : forall rights,
  agree (fun p => (jred (fst p), snd p)) (fun p => (jred (fst p), snd p))
    (tt_l_impl rd both (TGeneric f) (TGeneric h) this rights) (tt_l_impl rd both' (TGeneric f') (TGeneric h') this rights).
Proof.
  induction this as [k v n IH s|k v n s]; intros rights; cbn [tt_l_impl].
  - eapply agree_bind with (p := fun p : (jres K V R * list (K * V)) * option (K * V) => (jred (fst (fst p)), snd (fst p)))
      (q := fun p : (jres K V R * list (K * V)) * option (K * V) => (jred (fst (fst p)), snd (fst p))).
    { eapply agree_bind; [apply IH|]. intros a b Hab. apply agree_ret. exact Hab. }
    intros [[n1 r1] t1] [[n2 r2] t2] Heq. cbn [fst snd] in Heq. injection Heq as Hn <-.
    destruct (take_key _ r1) as [[e rs]|].
    + intros t t' H1 H2. destruct (jj rd _ _ t1 n1) as [x| |] eqn:H3; try discriminate. destruct (jj rd _ _ t2 n2) as [x'| |] eqn:H4; try discriminate.
      injection H1 as <-. injection H2 as <-. cbn [fst snd]. apply jj_red in H3, H4. rewrite H3, H4, Hb, Hn. reflexivity.
    + intros t t' H1 H2. destruct (jj rd _ _ t1 n1) as [x| |] eqn:H3; try discriminate. destruct (jj rd _ _ t2 n2) as [x'| |] eqn:H4; try discriminate.
      injection H1 as <-. injection H2 as <-. cbn [fst snd]. apply jj_red in H3, H4. rewrite H3, H4, !v_left_red, Hn. cbn [tcall]. rewrite Hf. reflexivity.
  - eapply agree_bind with (p := fun p : (jres K V R * list (K * V)) * option (K * V) => (jred (fst (fst p)), snd (fst p)))
      (q := fun p : (jres K V R * list (K * V)) * option (K * V) => (jred (fst (fst p)), snd (fst p))).
    { destruct (take_key _ rights) as [[e rs]|]; apply agree_ret; cbn [fst snd].
      - rewrite tt_s_impl_red. reflexivity.
      - rewrite !t_left_red, (s_transform_red f f' Hf). reflexivity. }
    intros [[n1 r1] t1] [[n2 r2] t2] Heq. cbn [fst snd] in Heq. injection Heq as Hn <-.
    destruct (take_key _ r1) as [[e rs]|].
    + intros t t' H1 H2. destruct (jj rd _ _ t1 n1) as [x| |] eqn:H3; try discriminate. destruct (jj rd _ _ t2 n2) as [x'| |] eqn:H4; try discriminate.
      injection H1 as <-. injection H2 as <-. cbn [fst snd]. apply jj_red in H3, H4. rewrite H3, H4, Hb, Hn. reflexivity.
    + intros t t' H1 H2. destruct (jj rd _ _ t1 n1) as [x| |] eqn:H3; try discriminate. destruct (jj rd _ _ t2 n2) as [x'| |] eqn:H4; try discriminate.
      injection H1 as <-. injection H2 as <-. cbn [fst snd]. apply jj_red in H3, H4. rewrite H3, H4, !v_left_red, Hn. cbn [tcall]. rewrite Hf. reflexivity.
Qed.

Lemma tt_rest_red this rights : forall n n', jred n = jred n' ->
  agree jred jred (tt_rest rd (TGeneric h) this rights n) (tt_rest rd (TGeneric h') this rights n').
Proof.
  induction rights as [|e rights IH]; intros n n' Hn; cbn [tt_rest]; [apply agree_ret; assumption|].
  eapply agree_bind; [|exact IH]. cbn [tcall]. specialize (Hh e). intros t t' H1 H2.
  assert (HG : forall o (m t : jres K V R), (match o, m with
         | _, JR _ => Panic
         | VUnchanged rr, JN n => Ret (JN (n_cons (fst e) (snd e) n (rd rr (nred n))))
         | VUnchanged rr, JLR rn | VUnchanged rr, JL rn =>
             Ret (JN (NRL (l_new (fst e) (snd e) (NL this)) (rd rr rn)))
         | VTransformed rv rr, JN n => Ret (JN (n_cons (fst e) rv n (rd rr (nred n))))
         | VTransformed rv rr, JLR rn | VTransformed rv rr, JL rn =>
             Ret (JN (NRL (l_new (fst e) rv (NL this)) (rd rr rn)))
         | VDropped rr, JN n => Ret (JN (n_with n (rd rr (nred n))))
         | VDropped rr, JLR rn | VDropped rr, JL rn => Ret (JL (rd rr rn))
         end) = Ret t -> jred t = rd (t_red o) (jred m)).
  { intros o m y. destruct o, m; try discriminate; intros [= <-]; cbn [jred nred t_red]; rewrite ?n_cons_red, ?n_with_red; reflexivity. }
  rewrite (HG _ _ _ H1), (HG _ _ _ H2), Hh, Hn. reflexivity.
Qed.

Lemma tt_lnode_red this right d :
  agree jred jred (tt_lnode rd both (TGeneric f) (TGeneric h) this right d) (tt_lnode rd both' (TGeneric f') (TGeneric h') this right d).
Proof.
  unfold tt_lnode. destruct (_ =? _); [|apply tt_apart_red]. apply agree_bind_eq. intros rights.
  eapply agree_bind; [apply tt_l_impl_red|]. intros [n1 r1] [n2 r2] Heq. cbn [fst snd] in Heq. injection Heq as Hn <-.
  apply tt_rest_red. assumption.
Qed.

Lemma tt_ls_impl_red this right :
  jred (tt_ls_impl rd both (TGeneric f) (TGeneric h) this right) = jred (tt_ls_impl rd both' (TGeneric f') (TGeneric h') this right).
Proof.
  induction this as [k v n IH s|k v n s]; cbn [tt_ls_impl]; destruct (keqb _ _);
    rewrite ?jt_red, ?tj_red, ?Hb, ?(n_transform_red rd f f' Hf); try reflexivity; cbn [tcall]; rewrite Hf.
  - rewrite IH. reflexivity.
  - rewrite tt_s_impl_red. reflexivity.
Qed.

Lemma tt_lsnode_red this right d :
  agree jred jred (tt_lsnode rd both (TGeneric f) (TGeneric h) this right d) (tt_lsnode rd both' (TGeneric f') (TGeneric h') this right d).
Proof. unfold tt_lsnode. destruct (_ =? _); [|apply tt_apart_red]. apply agree_ret. apply tt_ls_impl_red. Qed.

Lemma tt_snode_red this right d :
  agree jred jred (tt_snode rd both (TGeneric f) (TGeneric h) this right d) (tt_snode rd both' (TGeneric f') (TGeneric h') this right d).
Proof. unfold tt_snode. destruct (_ =? _); [|apply tt_apart_red]. apply agree_ret. apply tt_s_impl_red. Qed.

End Ops.

Lemma jflip_same (both both' : joint_op (K * V) V R) : (forall e e', b_red (jcall both e e') = b_red (jcall both' e e')) ->
  forall e e', b_red (jcall (jflip both) e e') = b_red (jcall (jflip both') e e').
Proof.
  intros H e e'.
  assert (HG : forall o : joint_op (K * V) V R, b_red (jcall (jflip o) e e') = b_red (jcall o e' e)).
  { assert (HF : forall b : bres V R, b_red (bres_flip b) = b_red b) by (intros []; reflexivity).
    intros [g fl|r|r|r|r]; try reflexivity. cbn [jflip jcall]. destruct fl; cbn [negb]; rewrite ?HF; reflexivity. }
  rewrite !HG. apply H.
Qed.

Section Maps.
Context (both both' : joint_op (K * V) V R) (f f' h h' : K * V -> vres V R).
Context (Hb : forall e e', b_red (jcall both e e') = b_red (jcall both' e e')).
Context (Hf : forall e, t_red (f e) = t_red (f' e)) (Hh : forall e, t_red (h e) = t_red (h' e)).

Lemma tt_leaf_red this right d :
  agree jred jred (tt_leaf rd both (TGeneric f) (TGeneric h) this right d) (tt_leaf rd both' (TGeneric f') (TGeneric h') this right d).
Proof.
  destruct this as [l|s], right as [r|r]; cbn [tt_leaf].
  - apply tt_lnode_red; assumption.
  - apply tt_lsnode_red; assumption.
  - eapply agree_bind; [apply tt_lsnode_red; [apply jflip_same| |]; assumption|]. intros a b Hab. apply agree_ret. rewrite !jres_flip_red. assumption.
  - apply tt_snode_red; assumption.
Qed.

Lemma tt_add_red (a : acc K V R) i ol or t a' : tt_add rd a i ol or t = Ret a' -> a_red a' = rd (a_red a) (jred t).
Proof.
  destruct t as [r|r|r|n]; cbn [tt_add].
  - destruct ol as [l|]; [|discriminate]. apply push_red.
  - destruct ol as [l|]; [|discriminate]. cbn [unwrap bind]. destruct (push _ _ _ _ _ _) as [y| |] eqn:Hy; try discriminate.
    intros [= <-]. apply push_red in Hy. exact Hy.
  - destruct or as [l|]; [|discriminate]. cbn [unwrap bind]. destruct (push _ _ _ _ _ _) as [y| |] eqn:Hy; try discriminate.
    intros [= <-]. apply push_red in Hy. exact Hy.
  - destruct (push_new rd a i n) as [y| |] eqn:Hy; try discriminate. intros [= <-]. apply push_new_red in Hy. exact Hy.
Qed.
Lemma tt_done_red (a : acc K V R) t : tt_done a = Ret t -> jred t = a_red a.
Proof.
  unfold tt_done. destruct (a_ul a), (a_ur a); try (intros [= <-]; reflexivity).
  destruct (finish a) as [n| |] eqn:Hn; try discriminate. intros [= <-]. apply finish_red in Hn. exact Hn.
Qed.

Lemma tt_lone_red n : agree jred jred (tt_lone rdef rd st (TGeneric f) n) (tt_lone rdef rd st (TGeneric f') n).
Proof. eapply agree_bind; [apply m_transform_red; exact Hf|]. intros a b Hab. apply agree_ret. rewrite !t_left_red. exact Hab. Qed.
Lemma tt_rone_red n : agree jred jred (tt_rone rdef rd st (TGeneric h) n) (tt_rone rdef rd st (TGeneric h') n).
Proof. eapply agree_bind; [apply m_transform_red; exact Hh|]. intros a b Hab. apply agree_ret. rewrite !t_right_red. exact Hab. Qed.

End Maps.

Section Maps2.
Context (both both' : joint_op (K * V) V R) (f f' h h' : K * V -> vres V R).
Context (Hb : forall e e', b_red (jcall both e e') = b_red (jcall both' e e')).
Context (Hf : forall e, t_red (f e) = t_red (f' e)) (Hh : forall e, t_red (h e) = t_red (h' e)).

Lemma tt_tree_leaf_red right n d :
  agree jred jred (tt_tree_leaf rdef rd st both (TGeneric f) (TGeneric h) right n d)
    (tt_tree_leaf rdef rd st both' (TGeneric f') (TGeneric h') right n d).
Proof.
  apply (m_leaf_red rdef rd jred); [exact tt_add_red|exact tt_done_red|apply tt_lone_red; assumption|apply tt_rone_red; assumption|].
  apply tt_leaf_red; assumption.
Qed.

End Maps2.

Lemma m_tt_red both both' f f' h h' (n right : mnode K V) d :
  (forall e e', b_red (jcall both e e') = b_red (jcall both' e e')) ->
  (forall e, t_red (f e) = t_red (f' e)) -> (forall e, t_red (h e) = t_red (h' e)) ->
  agree jred jred (m_tt rdef rd st both (TGeneric f) (TGeneric h) n right d) (m_tt rdef rd st both' (TGeneric f') (TGeneric h') n right d).
Proof.
  intros Hb Hf Hh. unfold m_tt.
  assert (Hs : forall b g g', tt_short (K := K) (V := V) (R := R) b (TGeneric g) (TGeneric g') = None) by (intros [] ? ?; reflexivity).
  rewrite !Hs. apply (m_joint_red rdef rd jred).
  - exact tt_add_red.
  - exact tt_done_red.
  - apply tt_lone_red; assumption.
  - apply tt_rone_red; assumption.
  - apply tt_leaf_red; assumption.
  - apply tt_tree_leaf_red; assumption.
  - intros x r d'. unfold tt_leaf_tree. eapply agree_bind; [apply tt_tree_leaf_red; [apply jflip_same| |]; assumption|].
    intros a b Hab. apply agree_ret. rewrite !jres_flip_red. assumption.
Qed.

Lemma map_tt_red both both' f f' h h' (m right : trie K V) m1 r1 o1 m2 r2 o2 :
  (forall e e', b_red (jcall both e e') = b_red (jcall both' e e')) ->
  (forall e, t_red (f e) = t_red (f' e)) -> (forall e, t_red (h e) = t_red (h' e)) ->
  map_tt rdef rd st both (TGeneric f) (TGeneric h) m right = Ret (m1, r1, o1) ->
  map_tt rdef rd st both' (TGeneric f') (TGeneric h') m right = Ret (m2, r2, o2) -> r1 = r2.
Proof.
  intros Hb Hf Hh. unfold map_tt. pose proof (m_tt_red both both' f f' h h' m right 0 Hb Hf Hh) as HA.
  destruct (m_tt _ _ _ both _ _ m right 0) as [t| |]; try discriminate.
  destruct (m_tt _ _ _ both' _ _ m right 0) as [t'| |]; try discriminate. specialize (HA t t' eq_refl eq_refl). cbn [bind].
  assert (HG : forall (x : jres K V R) m' r o, match x with
    | JLR r | JL r => Ret (m, r, Self) | JR r => Ret (right, r, Right) | JN n => Ret (nres_trie n, Other) end = Ret (m', r, o) -> r = jred x).
  { intros [r|r|r|n] m' r' o; try (intros [= <- <- <-]; reflexivity). destruct n; intros [= <- <- <-]; reflexivity. }
  intros H1 H2. apply HG in H1, H2. congruence.
Qed.

End TT.

(** * The reduction in general *)
Section Any.
Context {E : Env} {K V R : Type} {KK : Key K}.
Context (rdef : R) (rd : R -> R -> R) (st : strategy).

(** The same reductions, with every value transformed. *)
Definition all_new_b (both : joint_op (K * V) V R) : joint_op (K * V) V R :=
  JGeneric (fun e e' => BTransformed (snd e) (b_red (jcall both e e'))) false.
Definition all_new (f : K * V -> vres V R) : K * V -> vres V R := fun e => VTransformed (snd e) (t_red (f e)).

Lemma all_new_tame both f h ln lr : tame (all_new_b both) (TGeneric (all_new f)) (TGeneric (all_new h)) ln lr.
Proof.
  split; intros k Hk; (split; [intros _ e e' _ H; exact H|]); intros _; split; intros; cbn; auto.
Qed.

Lemma tt_reduction_any both f h (m right : trie K V) m' r o : reachable m -> reachable right ->
  monoid rdef rd -> (forall a b, rd a b = rd b a) ->
  map_tt rdef rd st both (TGeneric f) (TGeneric h) m right = Ret (m', r, o) ->
  r = fold_right rd rdef (merged_reds (fun e e' => b_red (jcall both e e')) (fun e => t_red (f e)) (fun e' => t_red (h e'))
        (map_visit m) (map_visit right)).
Proof.
  intros Hm Hr HM HC HI.
  assert (HT := all_new_tame both f h (map_visit m) (map_visit right)).
  destruct (tt_stuck rdef rd st both (TGeneric f) (TGeneric h) m right Hm Hr) as [Hns _]. specialize (Hns _ _ _ HI).
  destruct (tt_exact rdef rd st (all_new_b both) (TGeneric (all_new f)) (TGeneric (all_new h)) m right Hm Hr HT) as [[_ Hret] _].
  destruct Hret as (m2 & r2 & o2 & HI2).
  { intros [HS Hk]. apply Hns. split; [assumption|]. intros Hk'. clear - Hk'. destruct both; destruct Hk'. }
  etransitivity; [|exact (tt_reduction rdef rd st (all_new_b both) (all_new f) (all_new h) m right m2 r2 o2 Hm Hr HT HM HC HI2)].
  eapply map_tt_red; [| | |exact HI|exact HI2]; reflexivity.
Qed.

End Any.
