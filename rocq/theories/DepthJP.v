(** No operation builds a branch deeper than the keys need. *)
From Coq Require Import NArith Arith List Bool Lia ZifyBool ZifyN ZifyNat.
From Verif Require Import Base Words WordsP Flag FlagP Bia BiaP Node Spec SpecP Inv NodeP InsertP TrieP Api ApiP Trans Transform Joint JointT JointNodeP Reach ReachP Profile Depth.
Import ListNotations.
Open Scope N_scope.

(** * Results of collision lists and leaves are collision lists and leaves *)
Definition nlf {K V R} (n : nres K V R) : Prop := match n with NRC _ _ => False | _ => True end.
Definition tlf {K V R} (t : tres K V R) : Prop := match t with TU _ => True | TN n => nlf n end.
Definition jlf {K V R} (j : jres K V R) : Prop := match j with JN n => nlf n | _ => True end.

Ltac lf := repeat match goal with
  | |- True => exact Logic.I
  | H : False |- _ => contradiction
  | |- context [match ?x with _ => _ end] => destruct x; cbn in *
  end; auto.

Section Leafy.
Context {E : Env} {K V S X R : Type} (rd : R -> R -> R).

Lemma s_transform_lf op (s : snode K V) : tlf (s_transform (R := R) op s).
Proof. unfold s_transform. lf. Qed.
Lemma l_transform_result_lf (this : lnode K V) res (t : tres K V R) : tlf (l_transform_result rd this res t).
Proof. unfold l_transform_result. destruct res, t as [|[]]; cbn; auto; destruct (l_next this); exact Logic.I. Qed.
Lemma l_transform_lf op (l : lnode K V) : tlf (l_transform (R := R) rd op l).
Proof. destruct l; destruct op; cbn [l_transform]; try exact Logic.I; apply l_transform_result_lf. Qed.
Lemma n_transform_lf op (n : lnext K V) : tlf (n_transform (R := R) rd op n).
Proof. destruct n; [apply l_transform_lf|apply s_transform_lf]. Qed.
Lemma s_transmute_lf op (s : snode K V) : nlf (s_transmute (S := S) (X := X) (R := R) op s).
Proof. unfold s_transmute. lf. Qed.
Lemma l_transmute_result_lf res (n : nres S X R) : nlf (l_transmute_result rd res n).
Proof. destruct res, n; exact Logic.I. Qed.
Lemma l_transmute_lf op (l : lnode K V) : nlf (l_transmute (S := S) (X := X) (R := R) rd op l).
Proof. destruct l; destruct op; cbn [l_transmute]; try exact Logic.I; apply l_transmute_result_lf. Qed.
Lemma n_transmute_lf op (n : lnext K V) : nlf (n_transmute (S := S) (X := X) (R := R) rd op n).
Proof. destruct n; [apply l_transmute_lf|apply s_transmute_lf]. Qed.
Lemma n_with_lf (n : nres K V R) r : nlf n -> nlf (n_with n r).
Proof. destruct n; auto. Qed.
Lemma t_with_lf (t : tres K V R) r : tlf t -> tlf (t_with t r).
Proof. destruct t as [|[]]; auto. Qed.
Lemma n_cons_lf k v (n : nres K V R) r : nlf (n_cons k v n r).
Proof. destruct n; exact Logic.I. Qed.
Lemma t_cons_lf that k v (t : tres K V R) r : tlf (t_cons that k v t r).
Proof. destruct t as [|[]]; exact Logic.I. Qed.
Lemma next_nres_lf (n : lnext K V) (r : R) : nlf (next_nres n r).
Proof. destruct n; exact Logic.I. Qed.
Lemma t_left_lf (t : tres K V R) : tlf t -> jlf (t_left t).
Proof. destruct t; auto. Qed.
Lemma t_right_lf (t : tres K V R) : tlf t -> jlf (t_right t).
Proof. destruct t; auto. Qed.

End Leafy.

Section LeafyJ.
Context {E : Env} {K V L W S X R : Type} {KK : Key K} {KL : Key L} {KS : Key S} (rd : R -> R -> R).

(** transform_with_transmuted *)
Section TM.
Context (both : transform_op ((K * V) * (L * W)) V R) (lop : transform_op (K * V) V R) (rop : transmute_op (L * W) K V R).
Lemma tm_s_impl_lf s e : tlf (tm_s_impl rd both lop rop s e).
Proof. unfold tm_s_impl. lf. Qed.
Lemma tm_l_impl_lf this rights : tlf (fst (tm_l_impl rd both lop rop this rights)).
Proof.
  destruct this; cbn [tm_l_impl]; [destruct (tm_l_impl rd both lop rop _ rights) as [nx rs]|destruct (take_key _ rights) as [[e rs]|]];
    cbn [l_key l_value]; destruct (take_key _ _) as [[e' rs']|]; apply l_transform_result_lf.
Qed.
Lemma tm_rest_lf this rights : forall t, tlf t -> tlf (tm_rest rd rop this rights t).
Proof.
  induction rights as [|e rights IH]; intros t Ht; cbn [tm_rest]; [exact Ht|]. apply IH.
  destruct (mcall rop e); [apply t_cons_lf|apply t_with_lf; exact Ht].
Qed.
Lemma tm_ls_impl_lf this right : tlf (tm_ls_impl rd both lop rop this right).
Proof. destruct this; cbn [tm_ls_impl]; destruct (keqb _ _); apply l_transform_result_lf. Qed.
End TM.

Section MT.
Context (both : transform_op ((K * V) * (L * W)) W R) (lop : transmute_op (K * V) L W R) (rop : transform_op (L * W) W R).
Lemma mt_s_impl_lf s s' : tlf (mt_s_impl rd both lop rop s s').
Proof. unfold mt_s_impl. lf. Qed.
Lemma mt_hit_lf (s : snode L W) res (n : nres L W R) : nlf n -> nlf (mt_hit rd s res n).
Proof. intros Hn. destruct res; cbn [mt_hit]; [apply n_cons_lf|apply n_cons_lf|apply n_with_lf; exact Hn]. Qed.
Lemma mt_miss_lf (s : snode L W) res (t : tres L W R) : tlf t -> tlf (mt_miss rd s res t).
Proof. intros Ht. destruct res; cbn [mt_miss]; [apply t_cons_lf|]. destruct t as [|n]; [exact Logic.I|]. apply n_with_lf. exact Ht. Qed.
Lemma mt_ls_impl_lf this right : tlf (mt_ls_impl rd both lop rop this right).
Proof.
  induction this as [k v l IH z|k v s z]; cbn [mt_ls_impl]; destruct (keqb _ _).
  - cbn. apply mt_hit_lf. apply l_transmute_lf.
  - apply mt_miss_lf. exact IH.
  - cbn. apply mt_hit_lf. apply s_transmute_lf.
  - apply mt_miss_lf. apply mt_s_impl_lf.
Qed.
End MT.

Section MM.
Context (both : transmute_op ((K * V) * (L * W)) S X R) (lop : transmute_op (K * V) S X R) (rop : transmute_op (L * W) S X R).
Lemma mm_values_lf e e' : nlf (mm_values rd both lop rop e e').
Proof. unfold mm_values, k_nres. lf. Qed.
Lemma mm_l_impl_lf this rights : nlf (fst (mm_l_impl rd both lop rop this rights)).
Proof.
  destruct this; cbn [mm_l_impl]; [destruct (mm_l_impl rd both lop rop _ rights) as [nx rs]|destruct (take_key _ rights) as [[e rs]|]];
    cbn [l_key l_value]; destruct (take_key _ _) as [[e' rs']|]; apply l_transmute_result_lf.
Qed.
Lemma mm_rest_lf rights : forall t, nlf t -> nlf (mm_rest rd rop rights t).
Proof.
  induction rights as [|e rights IH]; intros t Ht; cbn [mm_rest]; [exact Ht|]. apply IH.
  destruct (mcall rop e); [apply n_cons_lf|apply n_with_lf; exact Ht].
Qed.
Lemma mm_ls_impl_lf this right : nlf (mm_ls_impl rd both lop rop this right).
Proof. destruct this; cbn [mm_ls_impl]; destruct (keqb _ _); apply l_transmute_result_lf. Qed.
End MM.
End LeafyJ.

Section LeafyT.
Context {E : Env} {K V R : Type} {KK : Key K} (rd : R -> R -> R).
Context (both : joint_op (K * V) V R) (lop rop : transform_op (K * V) V R).
Lemma tt_s_impl_lf s s' : jlf (tt_s_impl rd both lop rop s s').
Proof. unfold tt_s_impl. lf. Qed.
Lemma jj_lf this res that next t : jlf next -> jj rd this res that next = Ret t -> jlf (t : jres K V R).
Proof.
  intros Hn H. destruct res; destruct next as [r0|r0|r0|n0]; try destruct n0; try contradiction; cbn in H;
    try (destruct that; cbn in H; [|discriminate]); injection H as <-; try exact Logic.I; destruct (l_next this); exact Logic.I.
Qed.
Lemma jt_lf this res that (t : tres K V R) : tlf t -> jlf (jt rd this res that t).
Proof.
  intros Ht. destruct res; destruct t as [r0|n0]; cbn [jt]; try exact Logic.I; try apply n_cons_lf; try apply next_nres_lf; try (apply n_with_lf; exact Ht).
  destruct n0; try exact Logic.I; contradiction.
Qed.
Lemma tj_lf this res that (t : jres K V R) : jlf t -> jlf (tj rd this res that t).
Proof.
  intros Ht. destruct res; destruct t as [r0|r0|r0|n0]; cbn [tj]; try exact Logic.I; try apply n_cons_lf; try apply next_nres_lf; try (apply n_with_lf; exact Ht).
Qed.
Lemma tt_l_impl_lf this : forall rights t rs, tt_l_impl rd both lop rop this rights = Ret (t, rs) -> jlf t.
Proof.
  induction this as [k v l IH z|k v s z]; intros rights t rs H; cbn [tt_l_impl] in H.
  - destruct (tt_l_impl rd both lop rop l rights) as [[nx rs1]| |] eqn:H1; try discriminate. cbn [bind] in H.
    destruct (take_key _ _) as [[e' rs']|]; (destruct (jj _ _ _ _ _) as [t'| |] eqn:Hj; try discriminate; cbn [bind] in H; injection H as <- _; eapply jj_lf; [|exact Hj]; eapply IH; exact H1).
  - destruct (take_key (s_key s) rights) as [[e1 rs1]|]; cbn [bind] in H;
      (destruct (take_key _ _) as [[e' rs']|]; (destruct (jj _ _ _ _ _) as [t'| |] eqn:Hj; try discriminate; cbn [bind] in H; injection H as <- _; eapply jj_lf; [|exact Hj]));
      try apply tt_s_impl_lf; apply t_left_lf, s_transform_lf.
Qed.
Lemma tt_rest_lf this rights : forall next t, jlf next -> tt_rest rd rop this rights next = Ret t -> jlf (t : jres K V R).
Proof.
  induction rights as [|e rights IH]; intros next t Hn H; cbn [tt_rest] in H; [injection H as <-; exact Hn|].
  destruct (tcall rop e); destruct next as [r0|r0|r0|n0]; cbn [bind] in H; try discriminate; (eapply IH; [|exact H]);
    try exact Logic.I; try apply n_cons_lf; apply n_with_lf; exact Hn.
Qed.
Lemma tt_ls_impl_lf this right : jlf (tt_ls_impl rd both lop rop this right).
Proof.
  induction this as [k v l IH z|k v s z]; cbn [tt_ls_impl]; destruct (keqb _ _).
  - apply jt_lf. apply n_transform_lf.
  - apply tj_lf. exact IH.
  - apply jt_lf. apply n_transform_lf.
  - apply tj_lf. apply tt_s_impl_lf.
Qed.
End LeafyT.

(** * Results hold nothing deep *)
Section Sh.
Context {E : Env} (lim : N) (Hlim : lim < hbits) (Hroot : off 1 <= lim) (Hsep : forall c c' : C, sep lim (hash c) (hash c')).

Definition nsh {K V R} (d : N) (n : nres K V R) : Prop := forall m, nnode n = Some m -> shallow lim d m.
Definition tsh {K V R} (d : N) (t : tres K V R) : Prop := match t with TU _ => True | TN n => nsh d n end.
Definition jsh {K V R} (d : N) (j : jres K V R) : Prop := match j with JN n => nsh d n | _ => True end.
Definition ash {K V R} (d : N) (a : acc K V R) : Prop := forall m, In m (a_values a) -> shallow lim d m.

Lemma nlf_sh {K V R} d (n : nres K V R) : nlf n -> nsh d n.
Proof. intros H m Hm. destruct n; try contradiction; try discriminate; injection Hm as <-; constructor. Qed.
Lemma tlf_sh {K V R} d (t : tres K V R) : tlf t -> tsh d t.
Proof. destruct t; [auto|apply nlf_sh]. Qed.
Lemma jlf_sh {K V R} d (t : jres K V R) : jlf t -> jsh d t.
Proof. destruct t; auto. apply nlf_sh. Qed.
Lemma nnode_leaf {K V R} (n : nres K V R) m : nlf n -> nnode n = Some m -> leaf m.
Proof. intros H Hm. destruct n; try contradiction; try discriminate; injection Hm as <-; exact Logic.I. Qed.
Lemma tout_leaf {K V R} (t : tres K V R) (nx : lnext K V) m : tlf t -> tout (next_mnode nx) t = Some m -> leaf m.
Proof. intros H Hm. destruct t; [injection Hm as <-; apply leaf_next|eapply nnode_leaf; eassumption]. Qed.

Section Acc.
Context {K V R : Type} (rdef : R) (rd : R -> R -> R).

Lemma push_sh d a i (n : mnode K V) size r a' : ash d a -> shallow lim d n -> push rd a i n size r = Ret a' -> ash d a'.
Proof.
  intros Ha Hn. unfold push. destruct (nth_bit fw i) as [b|]; [|discriminate]. cbn [unwrap_ok bind].
  destruct (bit_insert _ _) as [bs|]; [|discriminate]. cbn [unwrap_ok bind]. intros [= <-] m Hm. cbn in Hm.
  apply in_app_or in Hm. destruct Hm as [Hm|[<-|[]]]; auto.
Qed.
Lemma push_new_sh d a i (n : nres K V R) a' : ash d a -> nsh d n -> push_new rd a i n = Ret a' -> ash d a'.
Proof.
  intros Ha Hn. destruct n; cbn [push_new]; try (apply push_sh; [exact Ha|apply Hn; reflexivity]).
  intros [= <-]. exact Ha.
Qed.
Lemma loop_sh d (step : acc K V R -> N -> outcome (acc K V R)) l :
  (forall a i a', In i l -> ash d a -> step a i = Ret a' -> ash d a') ->
  forall a a', ash d a -> loop step l a = Ret a' -> ash d a'.
Proof.
  induction l as [|i l IH]; intros Hs a a' Ha H; cbn [loop] in H; [injection H as <-; exact Ha|].
  destruct (step a i) as [a1| |] eqn:H1; try discriminate. cbn [bind] in H. eapply IH; [| |exact H].
  - intros a2 j a3 Hj. apply Hs. right. exact Hj.
  - eapply Hs; [left; reflexivity|exact Ha|exact H1].
Qed.
Lemma acc0_sh d : ash d (acc0 rdef : acc K V R).
Proof. intros m []. Qed.
Lemma run_sh d st (step : acc K V R -> N -> outcome (acc K V R)) a :
  (forall a i a', i < max_ones fw -> ash d a -> step a i = Ret a' -> ash d a') ->
  run_loop rdef rd st step = Ret a -> ash d a.
Proof.
  intros Hs H. destruct st; cbn [run_loop] in H.
  - eapply loop_sh; [|apply acc0_sh|exact H]. intros a1 i a2 Hi. apply Hs. apply range_in in Hi. lia.
  - unfold halves in H.
    destruct (loop step (range 0 _) _) as [l| |] eqn:Hl; try discriminate. cbn [bind] in H.
    destruct (loop step (range _ (max_ones fw)) _) as [r| |] eqn:Hr; try discriminate. cbn [bind] in H.
    destruct (bit_merge _ _) as [bs|]; [|discriminate]. cbn [unwrap_ok bind] in H. injection H as <-.
    intros m Hm. cbn in Hm. apply in_app_or in Hm. destruct Hm as [Hm|Hm].
    + revert m Hm. eapply loop_sh; [|apply acc0_sh|exact Hl]. intros a1 i a2 Hi. apply Hs. apply range_in in Hi.
      assert (max_ones fw / 2 <= max_ones fw) by (apply N.div_le_upper_bound; lia). lia.
    + revert m Hm. eapply loop_sh; [|apply acc0_sh|exact Hr]. intros a1 i a2 Hi. apply Hs. apply range_in in Hi. lia.
Qed.
Lemma finish_sh d a (n : nres K V R) : off (d + 1) <= lim -> ash (d + 1) a -> finish a = Ret n -> nsh d n.
Proof.
  intros Hd Ha H m Hm. unfold finish in H.
  assert (Hb : forall vs b, (forall x, In x vs -> In x (a_values a)) -> unwrap_ok (new_bia (a_bits a) vs (a_size a)) = Ret b -> shallow lim d (MC b)).
  { intros vs b Hv Hb. apply new_bia_inv in Hb. subst b. constructor; auto. }
  destruct (a_values a) as [|n1 [|n2 vs]] eqn:Hv; [injection H as <-; discriminate| |].
  - destruct n1 as [c|l|s]; try (injection H as <-; injection Hm as <-; constructor).
    destruct (unwrap_ok _) as [b| |] eqn:Hn; try discriminate. cbn [bind] in H. injection H as <-. injection Hm as <-. eapply Hb; [|exact Hn]. auto.
  - assert (H' : (let* b := unwrap_ok (new_bia (a_bits a) (n1 :: n2 :: vs) (a_size a)) in Ret (NRC b (a_red a))) = Ret n) by (destruct n1; exact H).
    destruct (unwrap_ok _) as [b| |] eqn:Hn; try discriminate. cbn [bind] in H'. injection H' as <-. injection Hm as <-. eapply Hb; [|exact Hn]. auto.
Qed.
End Acc.

Lemma bat_bit_in {B} (b : bia B) i a : bat_bit_index fw b i = Ret (Ok a) -> In a (bvalues b).
Proof.
  unfold bat_bit_index. destruct (nth_bit fw i); [|discriminate]. destruct (bit_index _ _) as [j|]; [|discriminate].
  destruct (nthN (bvalues b) j) eqn:Hn; [|discriminate]. cbn [unwrap bind]. intros [= <-]. unfold nthN in Hn. apply nth_error_In in Hn. exact Hn.
Qed.

(** transform *)
Lemma m_transform_sh {K V R} (rdef : R) rd st op (n : mnode K V) : forall d t, shallow lim d n -> m_transform rdef rd st op n = Ret t -> tsh d t.
Proof.
  induction n as [bits values x IH|l|s] using mnode_ind'; intros d t Hn H; cbn [m_transform] in H.
  - destruct op as [f|r|r]; [|injection H as <-; exact Logic.I|injection H as <-; intros m Hm; discriminate].
    destruct (shallow_C_inv _ _ _ _ _ Hn) as [Hd Hv].
    destruct (run_loop _ _ _ _) as [a| |] eqn:Ha; try discriminate. cbn [bind] in H.
    apply (run_sh rdef rd (d + 1)) in Ha.
    + destruct (a_ul a); [injection H as <-; exact Logic.I|]. destruct (finish a) as [n| |] eqn:Hf; try discriminate. cbn [bind] in H.
      injection H as <-. cbn [tsh]. eapply finish_sh; eassumption.
    + intros a1 i a2 Hi Ha1 Hs. unfold c_transform_step in Hs.
      destruct (bat_bit_index _ _ _) as [[[c res]|e]| |] eqn:Ho; try discriminate; cbn [bind] in Hs; [|injection Hs as <-; exact Ha1].
      apply bat_bit_in in Ho. cbn [bvalues] in Ho. apply in_map_iff in Ho. destruct Ho as (c' & [= -> <-] & Hc).
      destruct (m_transform rdef rd st (TGeneric f) c) as [t1| |] eqn:Ht; try discriminate. cbn [bind] in Hs.
      rewrite Forall_forall in IH. specialize (IH c Hc _ _ (Hv c Hc) Ht). destruct t1 as [r|n1].
      * eapply push_sh; [exact Ha1|apply Hv; exact Hc|exact Hs].
      * destruct (push_new rd a1 i n1) as [a3| |] eqn:Hp; try discriminate. cbn [bind] in Hs. injection Hs as <-.
        change (ash (d + 1) (set_ul a3)) with (ash (d + 1) a3). eapply push_new_sh; eassumption.
  - injection H as <-. apply tlf_sh, l_transform_lf.
  - injection H as <-. apply tlf_sh, s_transform_lf.
Qed.

Lemma m_transmute_sh {K V S X R} (rdef : R) rd (op : transmute_op (K * V) S X R) (n : mnode K V) :
  forall d t, shallow lim d n -> m_transmute rdef rd op n = Ret t -> nsh d t.
Proof.
  induction n as [bits values x IH|l|s] using mnode_ind'; intros d t Hn H; cbn [m_transmute] in H.
  - destruct op as [f|r]; [|injection H as <-; intros m Hm; discriminate].
    destruct (shallow_C_inv _ _ _ _ _ Hn) as [Hd Hv].
    destruct (loop _ _ _) as [a| |] eqn:Ha; try discriminate. cbn [bind] in H.
    destruct (_ =? _); [|discriminate].
    eapply finish_sh; [exact Hd| |exact H].
    eapply (loop_sh (d + 1)); [|apply acc0_sh|exact Ha].
    intros a1 i a2 Hi Ha1 Hs. unfold c_transmute_step in Hs.
    destruct (bat_bit_index _ _ _) as [[res|e]| |] eqn:Ho; try discriminate; cbn [bind] in Hs; [|injection Hs as <-; exact Ha1].
    apply bat_bit_in in Ho. cbn [bvalues] in Ho. apply in_map_iff in Ho. destruct Ho as (c & <- & Hc).
    destruct (m_transmute rdef rd (MGeneric f) c) as [t1| |] eqn:Ht; try discriminate. cbn [bind] in Hs.
    rewrite Forall_forall in IH. specialize (IH c Hc _ _ (Hv c Hc) Ht). eapply push_new_sh; eassumption.
  - injection H as <-. apply nlf_sh, l_transmute_lf.
  - injection H as <-. apply nlf_sh, s_transmute_lf.
Qed.

(** * The traversals *)
Section Traverse.
Context {K V L W S X R T : Type} {KK : Key K} {KL : Key L}.
Context (rdef : R) (rd : R -> R -> R).
Context (add : acc S X R -> N -> option (mnode K V) -> option (mnode L W) -> T -> outcome (acc S X R)).
Context (lone : mnode K V -> outcome T) (rone : mnode L W -> outcome T) (done : acc S X R -> outcome T).
Context (leaf : lnext K V -> lnext L W -> N -> outcome T).
Context (vsh : N -> T -> Prop).
Context (Hadd : forall d a i ol or t a', (forall m, ol = Some m -> shallow lim d m) -> (forall m, or = Some m -> shallow lim d m) ->
  vsh d t -> ash d a -> add a i ol or t = Ret a' -> ash d a').
Context (Hlone : forall d n t, shallow lim d n -> lone n = Ret t -> vsh d t).
Context (Hrone : forall d n t, shallow lim d n -> rone n = Ret t -> vsh d t).
Context (Hdone : forall d a t, off (d + 1) <= lim -> ash (d + 1) a -> done a = Ret t -> vsh d t).
Context (Hleaf : forall d this right t, pre d (hashk (next_key this)) = pre d (hashk (next_key right)) -> leaf this right d = Ret t -> vsh d t).

Lemma next_sh {A B} d (nx : lnext A B) : shallow lim d (next_mnode nx).
Proof. apply leaf_shallow, leaf_next. Qed.
Lemma some_sh {A B} d (n : mnode A B) : shallow lim d n -> forall m, Some n = Some m -> shallow lim d m.
Proof. intros H m [= <-]. exact H. Qed.
Lemma none_sh {A B} d : forall m : mnode A B, None = Some m -> shallow lim d m.
Proof. discriminate. Qed.
Ltac shs := try solve [apply none_sh|apply some_sh; auto using next_sh|eauto using next_sh].

Lemma key_pre {A B} {KA : Key A} d p (nx : lnext A B) : wf d p (next_mnode nx) -> pre d (hashk (next_key nx)) = p.
Proof.
  intros H. destruct nx as [l|s].
  - exact (wf_keys _ _ _ H (l_key l, l_value l) ltac:(destruct l; left; reflexivity)).
  - exact (wf_keys _ _ _ H (s_key s, s_value s) (or_introl eq_refl)).
Qed.

Lemma m_leaf_sh right n : forall d t, wf d (pre d (hashk (next_key right))) n -> shallow lim d n ->
  m_leaf rdef add lone rone done leaf right n d = Ret t -> vsh d t.
Proof.
  induction n as [bits values x IH|l|s] using mnode_ind'; intros d t HW Hn H; cbn [m_leaf] in H.
  - destruct (shallow_C_inv _ _ _ _ _ Hn) as [Hd Hv]. destruct (wf_C_inv _ _ _ _ _ HW) as [Hok Hch].
    assert (Ho : off d < hbits) by (pose proof (off_lt d); lia).
    rewrite flag_at_ok in H by exact Ho. cbn [bind unwrap fl_flag] in H.
    destruct (loop _ _ _) as [a| |] eqn:Ha; try discriminate. cbn [bind] in H.
    eapply Hdone; [exact Hd| |exact H]. eapply (loop_sh (d + 1)); [|apply acc0_sh|exact Ha].
    intros a1 i a2 Hi Ha1 Hs. apply range_in in Hi. unfold cl_step in Hs.
    rewrite bat_bit_index_slot in Hs by (try assumption; lia). rewrite nth_bit_ok in Hs by lia. cbn [bind unwrap_ok] in Hs.
    rewrite pow2_eqb in Hs.
    destruct (getv bits values i) as [c|] eqn:Hg.
    + pose proof (getv_in _ _ _ _ Hg) as Hc. destruct (N.eqb_spec (idx d (hashk (next_key right))) i) as [Hi'|Hi'].
      * destruct (m_leaf _ _ _ _ _ _ right c (d + 1)) as [t1| |] eqn:Ht; try discriminate. cbn [bind] in Hs.
        eapply Hadd; [| | |exact Ha1|exact Hs]; shs. rewrite Forall_forall in IH. apply (IH c Hc (d + 1) t1); [|exact (Hv c Hc)|exact Ht].
        rewrite pre_succ, Hi'. apply Hch. exact Hg.
      * destruct (lone c) as [t1| |] eqn:Ht; try discriminate. cbn [bind] in Hs.
        eapply Hadd; [| | |exact Ha1|exact Hs]; shs.
    + destruct (N.eqb_spec (idx d (hashk (next_key right))) i) as [Hi'|Hi']; [|injection Hs as <-; exact Ha1].
      destruct (rone _) as [t1| |] eqn:Ht; try discriminate. cbn [bind] in Hs.
      eapply Hadd; [| | |exact Ha1|exact Hs]; shs.
  - eapply Hleaf; [|exact H]. exact (key_pre d _ (NL l) HW).
  - eapply Hleaf; [|exact H]. exact (key_pre d _ (NS s) HW).
Qed.

Context (tree_leaf : lnext L W -> mnode K V -> N -> outcome T) (leaf_tree : lnext K V -> mnode L W -> N -> outcome T).
Context (short : option T) (st : strategy).
Context (Htree : forall right n d t, wf d (pre d (hashk (next_key right))) n -> shallow lim d n -> tree_leaf right n d = Ret t -> vsh d t).
Context (Hleft : forall this n d t, wf d (pre d (hashk (next_key this))) n -> shallow lim d n -> leaf_tree this n d = Ret t -> vsh d t).
Context (Hshort : forall d t, short = Some t -> vsh d t).

Lemma m_joint_sh n : forall r d p t, wf d p n -> wf d p r -> shallow lim d n -> shallow lim d r ->
  m_joint rdef rd add lone rone done leaf tree_leaf leaf_tree short st n r d = Ret t -> vsh d t.
Proof.
  assert (Hleaf' : forall this right d p t, wf d p (next_mnode this) -> wf d p (next_mnode right) -> leaf this right d = Ret t -> vsh d t).
  { intros this right d p t H1 H2. apply Hleaf. rewrite (key_pre _ _ _ H1), (key_pre _ _ _ H2). reflexivity. }
  assert (Htree' : forall right n d p t, wf d p n -> wf d p (next_mnode right) -> shallow lim d n -> tree_leaf right n d = Ret t -> vsh d t).
  { intros right n' d p t H1 H2. apply Htree. rewrite (key_pre _ _ _ H2). exact H1. }
  assert (Hleft' : forall this n d p t, wf d p (next_mnode this) -> wf d p n -> shallow lim d n -> leaf_tree this n d = Ret t -> vsh d t).
  { intros right n' d p t H1 H2. apply Hleft. rewrite (key_pre _ _ _ H1). exact H2. }
  induction n as [bits values x IH|l|s] using mnode_ind'; intros r d p t HW HW' Hn Hr H; cbn [m_joint] in H.
  - destruct r as [[bits' values' x']|r|r]; [|eapply (Htree' (NL r)); eassumption|eapply (Htree' (NS r)); eassumption].
    destruct short as [t0|] eqn:Hsh; [injection H as <-; apply Hshort; reflexivity|].
    destruct (shallow_C_inv _ _ _ _ _ Hn) as [Hd Hv]. destruct (wf_C_inv _ _ _ _ _ HW) as [Hok Hch].
    destruct (shallow_C_inv _ _ _ _ _ Hr) as [_ Hv']. destruct (wf_C_inv _ _ _ _ _ HW') as [Hok' Hch'].
    destruct (run_loop _ _ _ _) as [a| |] eqn:Ha; try discriminate. cbn [bind] in H.
    eapply Hdone; [exact Hd| |exact H]. eapply run_sh; [|exact Ha].
    intros a1 i a2 Hi Ha1 Hs. unfold cc_step in Hs.
    rewrite bat_bit_index_slot in Hs by assumption. rewrite <- (map_id values') in Hs. rewrite (bat_bit_index_slot (fun b => b)) in Hs by assumption.
    cbn [bind] in Hs.
    destruct (getv bits values i) as [c|] eqn:Hg, (getv bits' values' i) as [c'|] eqn:Hg'; [| | |injection Hs as <-; exact Ha1].
    + pose proof (getv_in _ _ _ _ Hg) as Hc. pose proof (getv_in _ _ _ _ Hg') as Hc'.
      destruct (m_joint _ _ _ _ _ _ _ _ _ _ _ c c' (d + 1)) as [t1| |] eqn:Ht; try discriminate. cbn [bind] in Hs.
      eapply Hadd; [| | |exact Ha1|exact Hs]; shs. rewrite Forall_forall in IH. apply (IH c Hc c' (d + 1) (p + i * 2 ^ off d) t1); auto.
    + pose proof (getv_in _ _ _ _ Hg) as Hc. destruct (lone c) as [t1| |] eqn:Ht; try discriminate. cbn [bind] in Hs.
      eapply Hadd; [| | |exact Ha1|exact Hs]; shs.
    + pose proof (getv_in _ _ _ _ Hg') as Hc'. destruct (rone c') as [t1| |] eqn:Ht; try discriminate. cbn [bind] in Hs.
      eapply Hadd; [| | |exact Ha1|exact Hs]; shs.
  - destruct r as [b|r|r]; [eapply (Hleft' (NL l)); eassumption|eapply (Hleaf' (NL l) (NL r)); eassumption|eapply (Hleaf' (NL l) (NS r)); eassumption].
  - destruct r as [b|r|r]; [eapply (Hleft' (NS s)); eassumption|eapply (Hleaf' (NS s) (NL r)); eassumption|eapply (Hleaf' (NS s) (NS r)); eassumption].
Qed.
End Traverse.

(** * Leaves with different hashes *)
Lemma lift_sh {K V A B} {KA : Key A} {KB : Key B} (a : A) (b : B) d lf rf (l r : mnode K V) c :
  hashk a <> hashk b -> pre d (hashk a) = pre d (hashk b) -> leaf l -> leaf r ->
  two_flags a b d = Ret (lf, rf) -> cnode_lift l lf r rf = Ret c -> shallow lim d (MC c).
Proof using Hlim Hroot Hsep.
  intros Hn Hp Hl Hr Hf Hc. destruct (two_flags_ok a b d Hn Hp) as (lf' & rf' & H & H1 & H2). rewrite H in Hf. injection Hf as -> ->.
  eapply c_lift_shallow; [exact Hlim|exact Hroot|exact Hl|exact Hr|exact Hn|apply Hsep|exact Hp|exact H1|exact H2|exact Hc].
Qed.

Section Apart.
Context {K V L W S X R : Type} {KK : Key K} {KL : Key L} {KS : Key S} (rd : R -> R -> R).

Lemma tm_apart_sh lop rop (this : lnext K V) (right : lnext L W) d (t : tres K V R) :
  hashk (next_key this) <> hashk (next_key right) -> pre d (hashk (next_key this)) = pre d (hashk (next_key right)) ->
  tm_apart rd lop rop this right d = Ret t -> tsh d t.
Proof using Hlim Hroot Hsep.
  intros Hn Hp H. unfold tm_apart in H. destruct (two_flags _ _ d) as [[lf rf]| |] eqn:Hf; try discriminate. cbn [bind] in H.
  pose proof (n_transform_lf rd lop this) as Hl. pose proof (n_transmute_lf (S := K) (X := V) rd rop right) as Hr.
  destruct (tout _ _) as [a|] eqn:Ha; [destruct (nnode _) as [b|] eqn:Hb|].
  - destruct (cnode_lift a lf b rf) as [c| |] eqn:Hc; try discriminate. cbn [bind] in H. injection H as <-. intros m [= <-].
    eapply (lift_sh (next_key this) (next_key right)); [exact Hn|exact Hp|eapply tout_leaf; [exact Hl|exact Ha]|eapply nnode_leaf; [exact Hr|exact Hb]|exact Hf|exact Hc].
  - injection H as <-. apply tlf_sh, t_with_lf. exact Hl.
  - injection H as <-. apply nlf_sh, n_with_lf. exact Hr.
Qed.
Lemma mt_apart_sh lop rop (this : lnext K V) (right : lnext L W) d (t : tres L W R) :
  hashk (next_key this) <> hashk (next_key right) -> pre d (hashk (next_key this)) = pre d (hashk (next_key right)) ->
  mt_apart rd lop rop this right d = Ret t -> tsh d t.
Proof using Hlim Hroot Hsep.
  intros Hn Hp H. unfold mt_apart in H. destruct (two_flags _ _ d) as [[lf rf]| |] eqn:Hf; try discriminate. cbn [bind] in H.
  pose proof (n_transmute_lf (S := L) (X := W) rd lop this) as Hl. pose proof (n_transform_lf rd rop right) as Hr.
  destruct (nnode _) as [a|] eqn:Ha; [destruct (tout _ _) as [b|] eqn:Hb|].
  - destruct (cnode_lift a lf b rf) as [c| |] eqn:Hc; try discriminate. cbn [bind] in H. injection H as <-. intros m [= <-].
    eapply (lift_sh (next_key this) (next_key right)); [exact Hn|exact Hp|eapply nnode_leaf; [exact Hl|exact Ha]|eapply tout_leaf; [exact Hr|exact Hb]|exact Hf|exact Hc].
  - injection H as <-. apply nlf_sh, n_with_lf. exact Hl.
  - injection H as <-. apply tlf_sh, t_with_lf. exact Hr.
Qed.
Lemma mm_apart_sh lop rop (this : lnext K V) (right : lnext L W) d (t : nres S X R) :
  hashk (next_key this) <> hashk (next_key right) -> pre d (hashk (next_key this)) = pre d (hashk (next_key right)) ->
  mm_apart rd lop rop this right d = Ret t -> nsh d t.
Proof using Hlim Hroot Hsep.
  intros Hn Hp H. unfold mm_apart in H. destruct (two_flags _ _ d) as [[lf rf]| |] eqn:Hf; try discriminate. cbn [bind] in H.
  pose proof (n_transmute_lf (S := S) (X := X) rd lop this) as Hl. pose proof (n_transmute_lf (S := S) (X := X) rd rop right) as Hr.
  destruct (nnode (n_transmute rd lop this)) as [a|] eqn:Ha; [destruct (nnode (n_transmute rd rop right)) as [b|] eqn:Hb|].
  - destruct (cnode_lift a lf b rf) as [c| |] eqn:Hc; try discriminate. cbn [bind] in H. injection H as <-. intros m [= <-].
    eapply (lift_sh (next_key this) (next_key right)); [exact Hn|exact Hp|eapply nnode_leaf; [exact Hl|exact Ha]|eapply nnode_leaf; [exact Hr|exact Hb]|exact Hf|exact Hc].
  - injection H as <-. apply nlf_sh, n_with_lf. exact Hl.
  - injection H as <-. apply nlf_sh, n_with_lf. exact Hr.
Qed.
Lemma tt_apart_sh lop rop (this right : lnext K V) d (t : jres K V R) :
  hashk (next_key this) <> hashk (next_key right) -> pre d (hashk (next_key this)) = pre d (hashk (next_key right)) ->
  tt_apart rd lop rop this right d = Ret t -> jsh d t.
Proof using Hlim Hroot Hsep.
  intros Hn Hp H. unfold tt_apart in H. destruct (two_flags _ _ d) as [[lf rf]| |] eqn:Hf; try discriminate. cbn [bind] in H.
  pose proof (n_transform_lf rd lop this) as Hl. pose proof (n_transform_lf rd rop right) as Hr.
  destruct (tout (next_mnode this) _) as [a|] eqn:Ha; [destruct (tout (next_mnode right) _) as [b|] eqn:Hb|].
  - destruct (cnode_lift a lf b rf) as [c| |] eqn:Hc; try discriminate. cbn [bind] in H. injection H as <-. intros m [= <-].
    eapply (lift_sh (next_key this) (next_key right)); [exact Hn|exact Hp|eapply tout_leaf; [exact Hl|exact Ha]|eapply tout_leaf; [exact Hr|exact Hb]|exact Hf|exact Hc].
  - injection H as <-. apply jlf_sh, t_left_lf, t_with_lf. exact Hl.
  - injection H as <-. apply jlf_sh, t_right_lf, t_with_lf. exact Hr.
Qed.
End Apart.

Section Leaves.
Context {K V L W S X R : Type} {KK : Key K} {KL : Key L} {KS : Key S} (rd : R -> R -> R).

Lemma tm_lnode_sh both lop rop (this : lnode K V) (right : lnode L W) d (t : tres K V R) :
  pre d (hashk (l_key this)) = pre d (hashk (l_key right)) -> tm_lnode rd both lop rop this right d = Ret t -> tsh d t.
Proof using Hlim Hroot Hsep.
  intros Hp H. unfold tm_lnode in H. destruct (N.eqb_spec (hashk (l_key this)) (hashk (l_key right))) as [He|Hn].
  - destruct (rights_loop _ _ _ _) as [rs| |]; try discriminate. cbn [bind] in H. destruct (tm_l_impl _ _ _ _ _ _) as [nx rs'] eqn:Hi.
    injection H as <-. apply tlf_sh, tm_rest_lf. change nx with (fst (nx, rs')). rewrite <- Hi. apply tm_l_impl_lf.
  - eapply (tm_apart_sh rd lop rop (NL this) (NL right)); eassumption.
Qed.
Lemma tm_lsnode_sh both lop rop (this : lnode K V) (right : snode L W) d (t : tres K V R) :
  pre d (hashk (l_key this)) = pre d (hashk (s_key right)) -> tm_lsnode rd both lop rop this right d = Ret t -> tsh d t.
Proof using Hlim Hroot Hsep.
  intros Hp H. unfold tm_lsnode in H. destruct (N.eqb_spec (hashk (l_key this)) (hashk (s_key right))) as [He|Hn].
  - injection H as <-. apply tlf_sh, tm_ls_impl_lf.
  - eapply (tm_apart_sh rd lop rop (NL this) (NS right)); eassumption.
Qed.
Lemma tm_snode_sh both lop rop (this : snode K V) (right : snode L W) d (t : tres K V R) :
  pre d (hashk (s_key this)) = pre d (hashk (s_key right)) -> tm_snode rd both lop rop this right d = Ret t -> tsh d t.
Proof using Hlim Hroot Hsep.
  intros Hp H. unfold tm_snode in H. destruct (N.eqb_spec (hashk (s_key this)) (hashk (s_key right))) as [He|Hn].
  - injection H as <-. apply tlf_sh, tm_s_impl_lf.
  - eapply (tm_apart_sh rd lop rop (NS this) (NS right)); eassumption.
Qed.
Lemma mt_lsnode_sh both lop rop (this : lnode K V) (right : snode L W) d (t : tres L W R) :
  pre d (hashk (l_key this)) = pre d (hashk (s_key right)) -> mt_lsnode rd both lop rop this right d = Ret t -> tsh d t.
Proof using Hlim Hroot Hsep.
  intros Hp H. unfold mt_lsnode in H. destruct (N.eqb_spec (hashk (l_key this)) (hashk (s_key right))) as [He|Hn].
  - injection H as <-. apply tlf_sh, mt_ls_impl_lf.
  - eapply (mt_apart_sh rd lop rop (NL this) (NS right)); eassumption.
Qed.
Lemma mt_snode_sh both lop rop (this : snode K V) (right : snode L W) d (t : tres L W R) :
  pre d (hashk (s_key this)) = pre d (hashk (s_key right)) -> mt_snode rd both lop rop this right d = Ret t -> tsh d t.
Proof using Hlim Hroot Hsep.
  intros Hp H. unfold mt_snode in H. destruct (N.eqb_spec (hashk (s_key this)) (hashk (s_key right))) as [He|Hn].
  - injection H as <-. apply tlf_sh, mt_s_impl_lf.
  - eapply (mt_apart_sh rd lop rop (NS this) (NS right)); eassumption.
Qed.
Lemma mm_lnode_sh both lop rop (this : lnode K V) (right : lnode L W) d (t : nres S X R) :
  pre d (hashk (l_key this)) = pre d (hashk (l_key right)) -> mm_lnode rd both lop rop this right d = Ret t -> nsh d t.
Proof using Hlim Hroot Hsep.
  intros Hp H. unfold mm_lnode in H. destruct (N.eqb_spec (hashk (l_key this)) (hashk (l_key right))) as [He|Hn].
  - destruct (rights_loop _ _ _ _) as [rs| |]; try discriminate. cbn [bind] in H. destruct (mm_l_impl _ _ _ _ _ _) as [nx rs'] eqn:Hi.
    injection H as <-. apply nlf_sh, mm_rest_lf. change nx with (fst (nx, rs')). rewrite <- Hi. apply mm_l_impl_lf.
  - eapply (mm_apart_sh rd lop rop (NL this) (NL right)); eassumption.
Qed.
Lemma mm_lsnode_sh both lop rop (this : lnode K V) (right : snode L W) d (t : nres S X R) :
  pre d (hashk (l_key this)) = pre d (hashk (s_key right)) -> mm_lsnode rd both lop rop this right d = Ret t -> nsh d t.
Proof using Hlim Hroot Hsep.
  intros Hp H. unfold mm_lsnode in H. destruct (N.eqb_spec (hashk (l_key this)) (hashk (s_key right))) as [He|Hn].
  - injection H as <-. apply nlf_sh, mm_ls_impl_lf.
  - eapply (mm_apart_sh rd lop rop (NL this) (NS right)); eassumption.
Qed.
Lemma mm_snode_sh both lop rop (this : snode K V) (right : snode L W) d (t : nres S X R) :
  pre d (hashk (s_key this)) = pre d (hashk (s_key right)) -> mm_snode rd both lop rop this right d = Ret t -> nsh d t.
Proof using Hlim Hroot Hsep.
  intros Hp H. unfold mm_snode in H. destruct (N.eqb_spec (hashk (s_key this)) (hashk (s_key right))) as [He|Hn].
  - injection H as <-. apply nlf_sh, mm_values_lf.
  - eapply (mm_apart_sh rd lop rop (NS this) (NS right)); eassumption.
Qed.
Lemma tt_lnode_sh both lop rop (this right : lnode K V) d (t : jres K V R) :
  pre d (hashk (l_key this)) = pre d (hashk (l_key right)) -> tt_lnode rd both lop rop this right d = Ret t -> jsh d t.
Proof using Hlim Hroot Hsep.
  intros Hp H. unfold tt_lnode in H. destruct (N.eqb_spec (hashk (l_key this)) (hashk (l_key right))) as [He|Hn].
  - destruct (rights_loop _ _ _ _) as [rs| |]; try discriminate. cbn [bind] in H. destruct (tt_l_impl _ _ _ _ _ _) as [[nx rs']| |] eqn:Hi; try discriminate.
    cbn [bind] in H. apply jlf_sh. eapply tt_rest_lf; [|exact H]. eapply tt_l_impl_lf. exact Hi.
  - eapply (tt_apart_sh rd lop rop (NL this) (NL right)); eassumption.
Qed.
Lemma tt_lsnode_sh both lop rop (this : lnode K V) (right : snode K V) d (t : jres K V R) :
  pre d (hashk (l_key this)) = pre d (hashk (s_key right)) -> tt_lsnode rd both lop rop this right d = Ret t -> jsh d t.
Proof using Hlim Hroot Hsep.
  intros Hp H. unfold tt_lsnode in H. destruct (N.eqb_spec (hashk (l_key this)) (hashk (s_key right))) as [He|Hn].
  - injection H as <-. apply jlf_sh, tt_ls_impl_lf.
  - eapply (tt_apart_sh rd lop rop (NL this) (NS right)); eassumption.
Qed.
Lemma tt_snode_sh both lop rop (this right : snode K V) d (t : jres K V R) :
  pre d (hashk (s_key this)) = pre d (hashk (s_key right)) -> tt_snode rd both lop rop this right d = Ret t -> jsh d t.
Proof using Hlim Hroot Hsep.
  intros Hp H. unfold tt_snode in H. destruct (N.eqb_spec (hashk (s_key this)) (hashk (s_key right))) as [He|Hn].
  - injection H as <-. apply jlf_sh, tt_s_impl_lf.
  - eapply (tt_apart_sh rd lop rop (NS this) (NS right)); eassumption.
Qed.
End Leaves.

Lemma jflip_sh {K V R} d (t : jres K V R) : jsh d t -> jsh d (jres_flip t).
Proof. destruct t; auto. Qed.

Lemma tm_leaf_sh {K V L W R} {KK : Key K} {KL : Key L} rd both lop rop d (this : lnext K V) (right : lnext L W) (t : tres K V R) :
  pre d (hashk (next_key this)) = pre d (hashk (next_key right)) -> tm_leaf rd both lop rop this right d = Ret t -> tsh d t.
Proof using Hlim Hroot Hsep.
  intros Hp H. destruct this as [l|s], right as [r|r]; cbn [tm_leaf next_key] in *;
    [exact (tm_lnode_sh rd _ _ _ _ _ d t (Hp) H)|exact (tm_lsnode_sh rd _ _ _ _ _ d t (Hp) H)|exact (mt_lsnode_sh rd _ _ _ _ _ d t (eq_sym Hp) H)|exact (tm_snode_sh rd _ _ _ _ _ d t (Hp) H)].
Qed.
Lemma mt_leaf_sh {K V L W R} {KK : Key K} {KL : Key L} rd both lop rop d (this : lnext K V) (right : lnext L W) (t : tres L W R) :
  pre d (hashk (next_key this)) = pre d (hashk (next_key right)) -> mt_leaf rd both lop rop this right d = Ret t -> tsh d t.
Proof using Hlim Hroot Hsep.
  intros Hp H. destruct this as [l|s], right as [r|r]; cbn [mt_leaf next_key] in *;
    [exact (tm_lnode_sh rd _ _ _ _ _ d t (eq_sym Hp) H)|exact (mt_lsnode_sh rd _ _ _ _ _ d t (Hp) H)|exact (tm_lsnode_sh rd _ _ _ _ _ d t (eq_sym Hp) H)|exact (mt_snode_sh rd _ _ _ _ _ d t (Hp) H)].
Qed.
Lemma mm_leaf_sh {K V L W S X R} {KK : Key K} {KL : Key L} rd both lop rop d (this : lnext K V) (right : lnext L W) (t : nres S X R) :
  pre d (hashk (next_key this)) = pre d (hashk (next_key right)) -> mm_leaf rd both lop rop this right d = Ret t -> nsh d t.
Proof using Hlim Hroot Hsep.
  intros Hp H. destruct this as [l|s], right as [r|r]; cbn [mm_leaf next_key] in *;
    [exact (mm_lnode_sh rd _ _ _ _ _ d t (Hp) H)|exact (mm_lsnode_sh rd _ _ _ _ _ d t (Hp) H)|exact (mm_lsnode_sh rd _ _ _ _ _ d t (eq_sym Hp) H)|exact (mm_snode_sh rd _ _ _ _ _ d t (Hp) H)].
Qed.
Lemma tt_leaf_sh {K V R} {KK : Key K} rd both lop rop d (this right : lnext K V) (t : jres K V R) :
  pre d (hashk (next_key this)) = pre d (hashk (next_key right)) -> tt_leaf rd both lop rop this right d = Ret t -> jsh d t.
Proof using Hlim Hroot Hsep.
  intros Hp H. destruct this as [l|s], right as [r|r]; cbn [tt_leaf next_key] in *.
  - eapply tt_lnode_sh; eauto.
  - eapply tt_lsnode_sh; eauto.
  - destruct (tt_lsnode _ _ _ _ _ _ _) as [t'| |] eqn:Ht; try discriminate. cbn [bind] in H. injection H as <-. apply jflip_sh. eapply tt_lsnode_sh; [|exact Ht]. auto.
  - eapply tt_snode_sh; eauto.
Qed.

(** * What the loops record *)
Lemma tm_add_sh {K V L W R} (rd : R -> R -> R) keep d a i ol (or : option (mnode L W)) (t : tres K V R) a' :
  (forall m, ol = Some m -> shallow lim d m) -> tsh d t -> ash d a -> tm_add rd keep a i ol or t = Ret a' -> ash d a'.
Proof.
  intros Ho Ht Ha H. destruct t as [r|n]; cbn [tm_add] in H.
  - destruct ol as [m|]; [|discriminate]. cbn [unwrap bind] in H. destruct (push _ _ _ _ _ _) as [a1| |] eqn:Hp; try discriminate. cbn [bind] in H.
    apply (push_sh rd d) in Hp; [|exact Ha|auto]. destruct keep; injection H as <-; exact Hp.
  - destruct (push_new _ _ _ _) as [a1| |] eqn:Hp; try discriminate. cbn [bind] in H. injection H as <-.
    eapply (push_new_sh rd d) in Hp; [exact Hp|exact Ha|exact Ht].
Qed.
Lemma mt_add_sh {K V L W R} (rd : R -> R -> R) keep d a i (ol : option (mnode K V)) or (t : tres L W R) a' :
  (forall m, or = Some m -> shallow lim d m) -> tsh d t -> ash d a -> mt_add rd keep a i ol or t = Ret a' -> ash d a'.
Proof.
  intros Ho Ht Ha H. destruct t as [r|n]; cbn [mt_add] in H.
  - destruct or as [m|]; [|discriminate]. cbn [unwrap bind] in H. destruct (push _ _ _ _ _ _) as [a1| |] eqn:Hp; try discriminate. cbn [bind] in H.
    apply (push_sh rd d) in Hp; [|exact Ha|auto]. destruct keep; injection H as <-; exact Hp.
  - destruct (push_new _ _ _ _) as [a1| |] eqn:Hp; try discriminate. cbn [bind] in H. injection H as <-.
    eapply (push_new_sh rd d) in Hp; [exact Hp|exact Ha|exact Ht].
Qed.
Lemma tt_add_sh {K V R} (rd : R -> R -> R) d a i ol or (t : jres K V R) a' :
  (forall m, ol = Some m -> shallow lim d m) -> (forall m, or = Some m -> shallow lim d m) -> jsh d t -> ash d a -> tt_add rd a i ol or t = Ret a' -> ash d a'.
Proof.
  intros Ho Ho' Ht Ha H. destruct t as [r|r|r|n]; cbn [tt_add] in H.
  - destruct ol as [m|]; [|discriminate]. cbn [unwrap bind] in H. apply (push_sh rd d) in H; auto.
  - destruct ol as [m|]; [|discriminate]. cbn [unwrap bind] in H. destruct (push _ _ _ _ _ _) as [a1| |] eqn:Hp; try discriminate. cbn [bind] in H.
    apply (push_sh rd d) in Hp; [|exact Ha|auto]. injection H as <-; exact Hp.
  - destruct or as [m|]; [|discriminate]. cbn [unwrap bind] in H. destruct (push _ _ _ _ _ _) as [a1| |] eqn:Hp; try discriminate. cbn [bind] in H.
    apply (push_sh rd d) in Hp; [|exact Ha|auto]. injection H as <-; exact Hp.
  - destruct (push_new _ _ _ _) as [a1| |] eqn:Hp; try discriminate. cbn [bind] in H. injection H as <-.
    eapply (push_new_sh rd d) in Hp; [exact Hp|exact Ha|exact Ht].
Qed.
Lemma tm_done_sh {K V R} d (a : acc K V R) t : off (d + 1) <= lim -> ash (d + 1) a -> tm_done a = Ret t -> tsh d t.
Proof.
  intros Hd Ha H. unfold tm_done in H. destruct (a_ul a); [injection H as <-; exact Logic.I|].
  destruct (finish a) as [n| |] eqn:Hf; try discriminate. cbn [bind] in H. injection H as <-. cbn [tsh]. eapply finish_sh; eassumption.
Qed.
Lemma mt_done_sh {K V R} d (a : acc K V R) t : off (d + 1) <= lim -> ash (d + 1) a -> mt_done a = Ret t -> tsh d t.
Proof.
  intros Hd Ha H. unfold mt_done in H. destruct (a_ur a); [injection H as <-; exact Logic.I|].
  destruct (finish a) as [n| |] eqn:Hf; try discriminate. cbn [bind] in H. injection H as <-. cbn [tsh]. eapply finish_sh; eassumption.
Qed.
Lemma tt_done_sh {K V R} d (a : acc K V R) t : off (d + 1) <= lim -> ash (d + 1) a -> tt_done a = Ret t -> jsh d t.
Proof.
  intros Hd Ha H. unfold tt_done in H. destruct (a_ul a), (a_ur a); try (injection H as <-; exact Logic.I).
  destruct (finish a) as [n| |] eqn:Hf; try discriminate. cbn [bind] in H. injection H as <-. cbn [jsh]. eapply finish_sh; eassumption.
Qed.

(** * The families *)
Lemma tn_sh {K V S X R} (rdef : R) rd (op : transmute_op (K * V) S X R) d n t :
  shallow lim d n -> (let* x := m_transmute rdef rd op n in Ret (TN x)) = Ret t -> tsh d t.
Proof. intros Hn H. destruct (m_transmute _ _ _ _) as [x| |] eqn:Hx; try discriminate. injection H as <-. cbn [tsh]. eapply m_transmute_sh; eassumption. Qed.
Lemma tl_sh {K V R} (rdef : R) rd st (op : transform_op (K * V) V R) d n t : shallow lim d n -> tt_lone rdef rd st op n = Ret t -> jsh d t.
Proof.
  intros Hn H. unfold tt_lone in H. destruct (m_transform _ _ _ _ _) as [x| |] eqn:Hx; try discriminate. injection H as <-.
  apply (m_transform_sh _ _ _ _ _ d) in Hx; [|exact Hn]. destruct x; auto.
Qed.
Lemma tr_sh {K V R} (rdef : R) rd st (op : transform_op (K * V) V R) d n t : shallow lim d n -> tt_rone rdef rd st op n = Ret t -> jsh d t.
Proof.
  intros Hn H. unfold tt_rone in H. destruct (m_transform _ _ _ _ _) as [x| |] eqn:Hx; try discriminate. injection H as <-.
  apply (m_transform_sh _ _ _ _ _ d) in Hx; [|exact Hn]. destruct x; auto.
Qed.

Lemma tm_tree_sh {K V L W R} {KK : Key K} {KL : Key L} (rdef : R) rd st both lop rop (right : lnext L W) (n : mnode K V) d t :
  wf d (pre d (hashk (next_key right))) n -> shallow lim d n -> tm_tree_leaf rdef rd st both lop rop right n d = Ret t -> tsh d t.
Proof using Hlim Hroot Hsep.
  intros HW Hn H. eapply (m_leaf_sh (KK := KK) (KL := KL) rdef rd); [| | | | |exact HW|exact Hn|exact H].
  - intros; eapply tm_add_sh; eassumption.
  - intros; eapply m_transform_sh; eassumption.
  - intros; eapply tn_sh; eassumption.
  - intros; eapply tm_done_sh; eassumption.
  - intros; eapply (tm_leaf_sh (KK := KK) (KL := KL)); eassumption.
Qed.
Lemma mt_tree_sh {K V L W R} {KK : Key K} {KL : Key L} (rdef : R) rd st both lop rop (right : lnext L W) (n : mnode K V) d t :
  wf d (pre d (hashk (next_key right))) n -> shallow lim d n -> mt_tree_leaf rdef rd st both lop rop right n d = Ret t -> tsh d t.
Proof using Hlim Hroot Hsep.
  intros HW Hn H. eapply (m_leaf_sh (KK := KK) (KL := KL) rdef rd); [| | | | |exact HW|exact Hn|exact H].
  - intros; eapply mt_add_sh; eassumption.
  - intros; eapply tn_sh; eassumption.
  - intros; eapply m_transform_sh; eassumption.
  - intros; eapply mt_done_sh; eassumption.
  - intros; eapply (mt_leaf_sh (KK := KK) (KL := KL)); eassumption.
Qed.
Lemma mm_tree_sh {K V L W S X R} {KK : Key K} {KL : Key L} {KS : Key S} (rdef : R) rd (both : transmute_op ((K * V) * (L * W)) S X R) lop rop (right : lnext L W) (n : mnode K V) d t :
  wf d (pre d (hashk (next_key right))) n -> shallow lim d n -> mm_tree_leaf rdef rd both lop rop right n d = Ret t -> nsh d t.
Proof using Hlim Hroot Hsep.
  intros HW Hn H. eapply (m_leaf_sh (KK := KK) (KL := KL) rdef rd); [| | | | |exact HW|exact Hn|exact H].
  - intros; eapply push_new_sh; eassumption.
  - intros; eapply m_transmute_sh; eassumption.
  - intros; eapply m_transmute_sh; eassumption.
  - intros; eapply finish_sh; eassumption.
  - intros; eapply (mm_leaf_sh (KK := KK) (KL := KL)); eassumption.
Qed.
Lemma tt_tree_sh {K V R} {KK : Key K} (rdef : R) rd st both lop rop (right : lnext K V) (n : mnode K V) d t :
  wf d (pre d (hashk (next_key right))) n -> shallow lim d n -> tt_tree_leaf rdef rd st both lop rop right n d = Ret t -> jsh d t.
Proof using Hlim Hroot Hsep.
  intros HW Hn H. eapply (m_leaf_sh (KK := KK) (KL := KK) rdef rd); [| | | | |exact HW|exact Hn|exact H].
  - intros; eapply tt_add_sh; [| | | |eassumption]; assumption.
  - intros; eapply tl_sh; eassumption.
  - intros; eapply tr_sh; eassumption.
  - intros; eapply tt_done_sh; eassumption.
  - intros; eapply (tt_leaf_sh (KK := KK)); eassumption.
Qed.

Lemma m_tm_sh {K V L W R} {KK : Key K} {KL : Key L} (rdef : R) rd st both lop rop (n : mnode K V) (r : mnode L W) d p t :
  wf d p n -> wf d p r -> shallow lim d n -> shallow lim d r -> m_tm rdef rd st both lop rop n r d = Ret t -> tsh d t.
Proof using Hlim Hroot Hsep.
  intros HW HW' Hn Hr H. eapply (m_joint_sh (KK := KK) (KL := KL)); [| | | | | | | |exact HW|exact HW'|exact Hn|exact Hr|exact H].
  - intros; eapply tm_add_sh; eassumption.
  - intros; eapply m_transform_sh; eassumption.
  - intros; eapply tn_sh; eassumption.
  - intros; eapply tm_done_sh; eassumption.
  - intros; eapply (tm_leaf_sh (KK := KK) (KL := KL)); eassumption.
  - intros; eapply (tm_tree_sh (KK := KK) (KL := KL)); eassumption.
  - intros; eapply (mt_tree_sh (KK := KL) (KL := KK)); eassumption.
  - discriminate.
Qed.
Lemma m_mt_sh {K V L W R} {KK : Key K} {KL : Key L} (rdef : R) rd st both lop rop (n : mnode K V) (r : mnode L W) d p t :
  wf d p n -> wf d p r -> shallow lim d n -> shallow lim d r -> m_mt rdef rd st both lop rop n r d = Ret t -> tsh d t.
Proof using Hlim Hroot Hsep.
  intros HW HW' Hn Hr H. eapply (m_joint_sh (KK := KK) (KL := KL)); [| | | | | | | |exact HW|exact HW'|exact Hn|exact Hr|exact H].
  - intros; eapply mt_add_sh; eassumption.
  - intros; eapply tn_sh; eassumption.
  - intros; eapply m_transform_sh; eassumption.
  - intros; eapply mt_done_sh; eassumption.
  - intros; eapply (mt_leaf_sh (KK := KK) (KL := KL)); eassumption.
  - intros; eapply (mt_tree_sh (KK := KK) (KL := KL)); eassumption.
  - intros; eapply (tm_tree_sh (KK := KL) (KL := KK)); eassumption.
  - discriminate.
Qed.
Lemma m_mm_sh {K V L W S X R} {KK : Key K} {KL : Key L} {KS : Key S} (rdef : R) rd (both : transmute_op ((K * V) * (L * W)) S X R) lop rop (n : mnode K V) (r : mnode L W) d p t :
  wf d p n -> wf d p r -> shallow lim d n -> shallow lim d r -> m_mm rdef rd both lop rop n r d = Ret t -> nsh d t.
Proof using Hlim Hroot Hsep.
  intros HW HW' Hn Hr H. eapply (m_joint_sh (KK := KK) (KL := KL)); [| | | | | | | |exact HW|exact HW'|exact Hn|exact Hr|exact H].
  - intros; eapply push_new_sh; eassumption.
  - intros; eapply m_transmute_sh; eassumption.
  - intros; eapply m_transmute_sh; eassumption.
  - intros; eapply finish_sh; eassumption.
  - intros; eapply (mm_leaf_sh (KK := KK) (KL := KL)); eassumption.
  - intros; eapply (mm_tree_sh (KK := KK) (KL := KL)); eassumption.
  - intros; eapply (mm_tree_sh (KK := KL) (KL := KK)); eassumption.
  - discriminate.
Qed.
Lemma m_tt_sh {K V R} {KK : Key K} (rdef : R) rd st both lop rop (n r : mnode K V) d p t :
  wf d p n -> wf d p r -> shallow lim d n -> shallow lim d r -> m_tt rdef rd st both lop rop n r d = Ret t -> jsh d t.
Proof using Hlim Hroot Hsep.
  intros HW HW' Hn Hr H. eapply (m_joint_sh (KK := KK) (KL := KK)); [| | | | | | | |exact HW|exact HW'|exact Hn|exact Hr|exact H].
  - intros; eapply tt_add_sh; [| | | |eassumption]; assumption.
  - intros; eapply tl_sh; eassumption.
  - intros; eapply tr_sh; eassumption.
  - intros; eapply tt_done_sh; eassumption.
  - intros; eapply (tt_leaf_sh (KK := KK)); eassumption.
  - intros; eapply (tt_tree_sh (KK := KK)); eassumption.
  - intros this n0 d0 t0 HW0 Hn0 H0. unfold tt_leaf_tree in H0. destruct (tt_tree_leaf _ _ _ _ _ _ _ _ _) as [t1| |] eqn:Ht; try discriminate.
    cbn [bind] in H0. injection H0 as <-. apply jflip_sh. eapply (tt_tree_sh (KK := KK)); eassumption.
  - intros d0 t0 H0. unfold tt_short in H0. destruct both, lop, rop; try discriminate; injection H0 as <-; try exact Logic.I; intros m Hm; discriminate.
Qed.

Lemma nres_trie_sh {K V R} (n : nres K V R) : nsh 0 n -> shallow lim 0 (fst (nres_trie n)).
Proof using Hroot. intros H. destruct n; try (apply H; reflexivity). apply shallow_new. exact Hroot. Qed.

(** * Every map a client can build *)
Theorem reachable_shallow {K V} {KK : Key K} (m : trie K V) : reachable m -> shallow lim 0 m.
Proof using Hlim Hroot Hsep.
  intros H. induction H.
  - apply shallow_new. exact Hroot.
  - revert H1. unfold map_insert. rewrite flag_new_ok. cbn [bind].
    destruct (m_insert m q (into q) v _ replace) as [r0| |] eqn:Hr0; try discriminate. cbn [bind]. intros Hi.
    eapply m_insert_shallow; [exact Hlim|exact Hroot|exact IHreachable| | | |exact Hr0|].
    + rewrite pre_0. apply reachable_mwf. assumption.
    + intros x Hx. apply Hsep.
    + unfold hashk at 1. rewrite H0. apply flag_for_0.
    + destruct r0; inversion Hi; reflexivity.
  - revert H0. unfold map_remove. rewrite flag_new_ok. cbn [bind].
    destruct (m_remove m q _) as [r0| |] eqn:Hr0; try discriminate. cbn [bind]. intros Hi.
    destruct r0 as [|c2 k' v'|l2 k' v'|s2 k' v'|k' v'] eqn:Hr0'; inversion Hi; subst m';
      try (apply shallow_new; exact Hroot); eapply m_remove_shallow; try exact IHreachable; try exact Hr0; reflexivity.
  - unfold map_transform in H0. destruct (m_transform _ _ _ _ _) as [t| |] eqn:Ht; try discriminate. cbn [bind] in H0.
    apply (m_transform_sh _ _ _ _ _ 0) in Ht; [|assumption]. destruct t as [r1|n]; [injection H0 as <- _ _; assumption|].
    injection H0 as Hn _. replace m' with (fst (nres_trie n)) by (rewrite Hn; reflexivity). apply nres_trie_sh. exact Ht.
  - unfold map_transmute in H1. destruct (m_transmute _ _ _ _) as [n| |] eqn:Ht; try discriminate. cbn [bind] in H1.
    apply (m_transmute_sh _ _ _ _ 0) in Ht; [|assumption]. injection H1 as Hn. replace m' with (fst (nres_trie n)) by (rewrite Hn; reflexivity). apply nres_trie_sh. exact Ht.
  - unfold map_tm in H2. destruct (m_tm _ _ _ _ _ _ _ _ _) as [t| |] eqn:Ht; try discriminate. cbn [bind] in H2.
    eapply m_tm_sh in Ht; [|apply reachable_mwf; eassumption|apply reachable_mwf; eassumption|assumption|assumption].
    destruct t as [r1|n]; [injection H2 as <- _ _; assumption|]. injection H2 as Hn _. replace m' with (fst (nres_trie n)) by (rewrite Hn; reflexivity). apply nres_trie_sh. exact Ht.
  - unfold map_mt in H2. destruct (m_mt _ _ _ _ _ _ _ _ _) as [t| |] eqn:Ht; try discriminate. cbn [bind] in H2.
    eapply m_mt_sh in Ht; [|apply reachable_mwf; eassumption|apply reachable_mwf; eassumption|assumption|assumption].
    destruct t as [r1|n]; [injection H2 as <- _ _; assumption|]. injection H2 as Hn _. replace m' with (fst (nres_trie n)) by (rewrite Hn; reflexivity). apply nres_trie_sh. exact Ht.
  - unfold map_mm in H4. destruct (m_mm _ _ _ _ _ _ _ _) as [n| |] eqn:Ht; try discriminate. cbn [bind] in H4.
    eapply m_mm_sh in Ht; [|apply reachable_mwf; eassumption|apply reachable_mwf; eassumption|assumption|assumption].
    injection H4 as Hn. replace m' with (fst (nres_trie n)) by (rewrite Hn; reflexivity). apply nres_trie_sh. exact Ht.
  - unfold map_tt in H2. destruct (m_tt _ _ _ _ _ _ _ _ _) as [t| |] eqn:Ht; try discriminate. cbn [bind] in H2.
    eapply m_tt_sh in Ht; [|apply reachable_mwf; eassumption|apply reachable_mwf; eassumption|assumption|assumption].
    destruct t as [r1|r1|r1|n]; try (injection H2 as <- _ _; assumption). injection H2 as Hn _. replace m' with (fst (nres_trie n)) by (rewrite Hn; reflexivity). apply nres_trie_sh. exact Ht.
Qed.
End Sh.
