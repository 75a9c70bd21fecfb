(** transform, transmute and the joint operations on the heap (HeapBulk.v) do
    what the tree operations do, and build from new cells and cells of their
    operands. *)
From Coq Require Import NArith Arith List Bool Lia ZifyBool ZifyN ZifyNat.
From Verif Require Import Base Words Flag Bia BiaP Node Api Trans Transform Joint JointT Heap SpecH HeapP HeapOpP HeapBulk.
Import ListNotations.
Open Scope N_scope.

(** * The tree read off a handle *)
Section Strip.
Context {K V : Type}.
Definition strip_s (s : dleaf K V) : snode K V := match s with DSN _ k v => SN k v end.
Fixpoint strip_l (l : dlist K V) : lnode K V :=
  match l with
  | DLL _ k v n z => LNL k v (strip_l n) z
  | DLS _ k v s z => LNS k v (strip_s s) z
  end.
Definition strip_x (x : dnext K V) : lnext K V := match x with DNL l => NL (strip_l l) | DNS s => NS (strip_s s) end.
Fixpoint strip (n : dnode K V) : mnode K V :=
  match n with
  | DC _ (BIA bits values x) => MC (BIA bits (map strip values) x)
  | DL l => ML (strip_l l)
  | DS s => MS (strip_s s)
  end.

Lemma dnode_ind' (P : dnode K V -> Prop) :
  (forall a bits values x, Forall P values -> P (DC a (BIA bits values x))) ->
  (forall l, P (DL l)) -> (forall s, P (DS s)) -> forall n, P n.
Proof.
  intros HC HL HS. fix IH 1. intros [a [bits values x]|l|s]; [|apply HL|apply HS].
  apply HC. induction values as [|c vs IHv]; constructor; [apply IH|exact IHv].
Qed.

Lemma strip_entry_s s : ds_entry s = (s_key (strip_s s), s_value (strip_s s)).
Proof. destruct s. reflexivity. Qed.
Lemma strip_entry_l l : dl_entry l = (l_key (strip_l l), l_value (strip_l l)).
Proof. destruct l; reflexivity. Qed.
Lemma strip_next l : strip_x (dl_next l) = l_next (strip_l l).
Proof. destruct l; reflexivity. Qed.
Lemma strip_node x : strip (dn_node x) = next_mnode (strip_x x).
Proof. destruct x; reflexivity. Qed.
Lemma strip_dkey x : dn_key x = next_key (strip_x x).
Proof. destruct x as [[]|[]]; reflexivity. Qed.
Lemma strip_size n : d_size n = m_size (strip n).
Proof. destruct n as [a [bits values x]|[]|]; reflexivity. Qed.
Lemma node_next (x : dnext K V) : d_node (dn_node x) = hnext_node (dn_next x).
Proof. destruct x; reflexivity. Qed.
End Strip.

(** * Placement: the cells under a handle satisfy [G] *)
Section W.
Context {E : Env} {S X R : Type} {NZ : Noise S X}.
Notation heap := (heap S X).
Context (h0 : heap) (G : addr -> Prop) (HG : forall x, (length h0 <= x)%nat -> G x).

Definition pl (w : heap) (n : hnode) (t : mnode S X) : Prop := rep w n t /\ forall x, inside w n x -> G x.
Definition plx (w : heap) (x : hnext) (t : lnext S X) : Prop := rep_next w x t /\ forall y, inside w (hnext_node x) y -> G y.

Lemma pl_ext w w' n t : pl w n t -> ext w w' -> pl w' n t.
Proof.
  intros (Hr & Hi) He. split; [eapply rep_ext; eassumption|]. intros x Hx. apply Hi. eapply inside_old; eassumption.
Qed.
Lemma plx_pl w x t : plx w x t -> pl w (hnext_node x) (next_mnode t).
Proof. intros (Hr & Hi). split; [apply rep_next_node, Hr|exact Hi]. Qed.
Lemma pl_plx_L w a l : pl w (HL a) (ML l) -> plx w (XL a) (NL l).
Proof. intros (Hr & Hi). split; [|exact Hi]. inversion Hr; subst. assumption. Qed.
Lemma pl_plx_S w a s : pl w (HS a) (MS s) -> plx w (XS a) (NS s).
Proof. intros (Hr & Hi). split; [|exact Hi]. inversion Hr; subst. assumption. Qed.

Lemma new_G w : ext h0 w -> G (length w).
Proof. intros He. apply HG. apply ext_len, He. Qed.

Lemma pl_new_S w k v : ext h0 w -> pl (w ++ [CellS k v]) (HS (length w)) (MS (SN k v)).
Proof.
  intros He. split; [constructor; apply rep_alloc_S|]. intros x Hx. inversion Hx; subst. apply new_G, He.
Qed.

Lemma pl_new_C w b b' : ext h0 w -> brel (pl w) b b' -> pl (w ++ [CellC b]) (HC (length w)) (MC b').
Proof.
  intros He (H1 & H2 & H3). split.
  - apply rep_alloc_C. split; [exact H1|]. split; [exact H2|]. eapply forall2_impl; [|exact H3]. intros n t (Hr & _). exact Hr.
  - intros x Hx. destruct (inside_new_C _ _ _ Hx) as [->|(c & Hi & Hy)]; [apply new_G, He|].
    destruct (in_forall2 _ _ _ _ H3 Hi) as (t & _ & Hr & Hg). apply Hg. eapply inside_old; [exact Hr|apply ext_alloc|exact Hy].
Qed.

Lemma new_G_others w : ext h0 w -> G (length (others w)).
Proof. intros He. apply new_G. eapply ext_trans; [exact He|apply ext_others]. Qed.
Lemma pl_alloc_S w k v : ext h0 w -> pl (others w ++ [CellS k v]) (HS (length (others w))) (MS (SN k v)).
Proof. intros He. apply pl_new_S. eapply ext_trans; [exact He|apply ext_others]. Qed.
Lemma pl_alloc_C w b b' : ext h0 w -> brel (pl w) b b' -> pl (others w ++ [CellC b]) (HC (length (others w))) (MC b').
Proof.
  intros He (H1 & H2 & H3). apply pl_new_C; [eapply ext_trans; [exact He|apply ext_others]|].
  split; [exact H1|]. split; [exact H2|]. eapply forall2_impl; [|exact H3]. intros n t Hn. eapply pl_ext; [exact Hn|apply ext_others].
Qed.

(** ** Runs that write *)
Definition wref {A B} (rel : heap -> A -> B -> Prop) (w : heap) (o : outcome (A * heap)) (o' : outcome B) : Prop :=
  refines (fun p y => ext w (snd p) /\ rel (snd p) (fst p) y) o o'.

Lemma wref_ret {A B} (rel : heap -> A -> B -> Prop) w a b : rel w a b -> wref rel w (Ret (a, w)) (Ret b).
Proof. intros H. constructor. split; [apply ext_refl|exact H]. Qed.

Lemma wref_bind {A B A' B'} (rel : heap -> A -> B -> Prop) (rel' : heap -> A' -> B' -> Prop) w o o' f f' :
  wref rel w o o' -> (forall a w' b, ext w w' -> rel w' a b -> wref rel' w' (f (a, w')) (f' b)) ->
  wref rel' w (bind o f) (bind o' f').
Proof.
  intros Ho Hf. unfold wref. eapply refines_bind; [exact Ho|]. intros [a w'] b (He & Hr). cbn [fst snd] in He, Hr.
  eapply refines_weak; [apply (Hf a w' b He Hr)|]. intros [a2 w2] b2 (He2 & Hr2). cbn [fst snd] in *.
  split; [eapply ext_trans; eassumption|exact Hr2].
Qed.

(** A bind against a pure step on the tree side. *)
Lemma wref_let {A B A' B'} (rel : heap -> A -> B -> Prop) (rel' : heap -> A' -> B' -> Prop) w o b f o' :
  wref rel w o (Ret b) -> (forall a w', ext w w' -> rel w' a b -> wref rel' w' (f (a, w')) o') ->
  wref rel' w (bind o f) o'.
Proof.
  intros Ho Hf. inversion Ho as [[a w'] b0 (He & Hr) H1 H2| |]; subst. cbn [bind fst snd] in *.
  unfold wref. eapply refines_weak; [apply (Hf a w' He Hr)|]. intros [a2 w2] b2 (He2 & Hr2). cbn [fst snd] in *.
  split; [eapply ext_trans; eassumption|exact Hr2].
Qed.

Lemma wref_same {A A' B'} (rel' : heap -> A' -> B' -> Prop) w (o : outcome A) f f' :
  (forall a, wref rel' w (f a) (f' a)) -> wref rel' w (bind o f) (bind o f').
Proof. intros H. apply refines_same. intros a _. apply H. Qed.

Lemma wref_pure {A B A' B'} (P : A -> B -> Prop) (rel' : heap -> A' -> B' -> Prop) w o o' f f' :
  refines P o o' -> (forall a b, P a b -> wref rel' w (f a) (f' b)) -> wref rel' w (bind o f) (bind o' f').
Proof. intros Ho Hf. eapply refines_bind; eassumption. Qed.

Lemma wref_weak {A B} (rel rel' : heap -> A -> B -> Prop) w o o' :
  wref rel w o o' -> (forall w' a b, rel w' a b -> rel' w' a b) -> wref rel' w o o'.
Proof. intros Ho Hw. eapply refines_weak; [exact Ho|]. intros [a w'] b (He & Hr). split; [exact He|apply Hw, Hr]. Qed.

(** ** Results *)
Definition nrel (w : heap) (n : hnres R) (n' : nres S X R) : Prop :=
  orel (pl w) (hnnode n) (nnode n') /\ hnred n = nred n'.
Definition trel (w : heap) (t : htres R) (t' : tres S X R) : Prop :=
  match t, t' with
  | HTU r, TU r' => r = r'
  | HTN n, TN n' => nrel w n n'
  | _, _ => False
  end.
Definition jrel (w : heap) (t : hjres R) (t' : jres S X R) : Prop :=
  match t, t' with
  | HJLR r, JLR r' | HJL r, JL r' | HJR r, JR r' => r = r'
  | HJN n, JN n' => nrel w n n'
  | _, _ => False
  end.
Definition arel (w : heap) (a : hacc R) (a' : acc S X R) : Prop :=
  ha_size a = a_size a' /\ ha_bits a = a_bits a' /\ Forall2 (pl w) (ha_values a) (a_values a') /\
  ha_ul a = a_ul a' /\ ha_ur a = a_ur a' /\ ha_red a = a_red a'.

Lemma nrel_ext w w' n n' : nrel w n n' -> ext w w' -> nrel w' n n'.
Proof. intros (H & Hr) He. split; [|exact Hr]. destruct H; constructor. eapply pl_ext; eassumption. Qed.
Lemma trel_ext w w' t t' : trel w t t' -> ext w w' -> trel w' t t'.
Proof. destruct t, t'; cbn; auto. intros H He. eapply nrel_ext; eassumption. Qed.
Lemma jrel_ext w w' t t' : jrel w t t' -> ext w w' -> jrel w' t t'.
Proof. destruct t, t'; cbn; auto. intros H He. eapply nrel_ext; eassumption. Qed.
Lemma arel_ext w w' a a' : arel w a a' -> ext w w' -> arel w' a a'.
Proof.
  intros (H1 & H2 & H3 & H4) He. split; [exact H1|]. split; [exact H2|]. split; [|exact H4].
  eapply forall2_impl; [|exact H3]. intros n t Hn. eapply pl_ext; eassumption.
Qed.

(** The three shapes of a node result. *)
Inductive nshape (w : heap) : hnres R -> nres S X R -> Prop :=
| ns_C a c r : pl w (HC a) (MC c) -> nshape w (HNN (HC a) r) (NRC c r)
| ns_L a l r : plx w (XL a) (NL l) -> nshape w (HNN (HL a) r) (NRL l r)
| ns_S a s r : plx w (XS a) (NS s) -> nshape w (HNN (HS a) r) (NRS s r)
| ns_Z r : nshape w (HNZ r) (NRZ r).

Lemma nrel_shape w n n' : nrel w n n' -> nshape w n n'.
Proof.
  intros (H & Hr). destruct n as [x r|r], n' as [c r'|l r'|s r'|r']; cbn in H, Hr; subst r'; inversion H as [a b Hp|]; subst;
    try (constructor; fail).
  - pose proof Hp as (Hq & _). inversion Hq; subst. constructor. exact Hp.
  - pose proof Hp as (Hq & _). inversion Hq; subst. constructor. apply pl_plx_L, Hp.
  - pose proof Hp as (Hq & _). inversion Hq; subst. constructor. apply pl_plx_S, Hp.
Qed.

Lemma nrel_N w x t r n' : pl w x t -> nnode n' = Some t -> nred n' = r -> nrel w (HNN x r) n'.
Proof. intros Hp Hn Hr. split; [cbn; rewrite Hn; constructor; exact Hp|cbn; symmetry; exact Hr]. Qed.
Lemma nrel_Z w r : nrel w (HNZ r) (NRZ r).
Proof. split; constructor. Qed.

Lemma hn_with_rel w n n' r : nrel w n n' -> nrel w (hn_with n r) (n_with n' r).
Proof. intros H. destruct (nrel_shape _ _ _ H); (split; [|reflexivity]); apply H. Qed.
Lemma ht_with_rel w t t' r : trel w t t' -> trel w (ht_with t r) (t_with t' r).
Proof. destruct t, t'; cbn; auto. apply hn_with_rel. Qed.
Lemma htred_rel w t t' : trel w t t' -> htred t = tred t'.
Proof. destruct t, t'; cbn; try contradiction; auto. intros (_ & H). exact H. Qed.
Lemma hjred_rel w t t' : jrel w t t' -> hjred t = jred t'.
Proof. destruct t, t'; cbn; try contradiction; auto. intros (_ & H). exact H. Qed.
Lemma hnred_rel w n n' : nrel w n n' -> hnred n = nred n'.
Proof. intros (_ & H). exact H. Qed.
Lemma htout_rel w n m t t' : pl w n m -> trel w t t' -> orel (pl w) (htout n t) (tout m t').
Proof. intros Hp. destruct t, t'; cbn; try contradiction; [intros _; constructor; exact Hp|intros (H & _); exact H]. Qed.
Lemma ht_left_rel w t t' : trel w t t' -> jrel w (ht_left t) (t_left t').
Proof. destruct t, t'; cbn; auto. Qed.
Lemma ht_right_rel w t t' : trel w t t' -> jrel w (ht_right t) (t_right t').
Proof. destruct t, t'; cbn; auto. Qed.
Lemma hjres_flip_rel w t t' : jrel w t t' -> jrel w (hjres_flip t) (jres_flip t').
Proof. destruct t, t'; cbn; auto. Qed.

Lemma nrel_next w x t r : plx w x t -> nrel w (hnext_nres x r) (next_nres t r).
Proof. intros H. eapply nrel_N; [apply plx_pl, H| |]; destruct t; reflexivity. Qed.

Lemma as_t_ok w o o' : wref nrel w o o' -> wref trel w (as_t o) (let* n := o' in Ret (TN n)).
Proof. intros H. eapply wref_bind; [exact H|]. intros n w' n' He Hn. apply wref_ret. exact Hn. Qed.
Lemma as_j_ok w o o' : wref nrel w o o' -> wref jrel w (as_j o) (let* n := o' in Ret (JN n)).
Proof. intros H. eapply wref_bind; [exact H|]. intros n w' n' He Hn. apply wref_ret. exact Hn. Qed.
Lemma as_flip_ok w o o' : wref jrel w o o' -> wref jrel w (as_flip o) (let* t := o' in Ret (jres_flip t)).
Proof. intros H. eapply wref_bind; [exact H|]. intros n w' n' He Hn. apply wref_ret. apply hjres_flip_rel, Hn. Qed.

(** ** New nodes *)
Lemma hs_new_plx w k v : ext h0 w -> plx (snd (hs_new w k v)) (XS (fst (hs_new w k v))) (NS (SN k v)) /\ ext w (snd (hs_new w k v)).
Proof. intros He. split; [apply pl_plx_S, pl_alloc_S, He|apply ext_others_alloc]. Qed.

Lemma new_s_ok w k v r : ext h0 w -> wref nrel w (new_s k v r w) (Ret (NRS (SN k v) r)).
Proof.
  intros He. constructor. cbn [fst snd]. split; [apply ext_others_alloc|]. eapply nrel_N; [apply pl_alloc_S, He|reflexivity|reflexivity].
Qed.
Lemma hl_new_pl w k v x t : ext h0 w -> plx w x t ->
  exists w', hl_new w k v x = Ret (length (others w), w') /\ ext w w' /\ plx w' (XL (length (others w))) (NL (l_new k v t)).
Proof.
  intros He (Hr & Hi). destruct (hl_new_ok w k v x t Hr) as (z & Hz & Hrep).
  exists (others w ++ [CellL k v x z]). split; [exact Hz|]. split; [apply ext_others_alloc|]. split; [exact Hrep|].
  intros y Hy. destruct (inside_new_L _ _ _ _ _ _ Hy) as [->|Hy2]; [apply new_G_others, He|].
  apply Hi. eapply inside_old; [apply rep_next_node, Hr|apply ext_others_alloc|exact Hy2].
Qed.
Lemma new_l_ok w k v x t r : ext h0 w -> plx w x t -> wref nrel w (new_l k v x r w) (Ret (NRL (l_new k v t) r)).
Proof.
  intros He Hx. destruct (hl_new_pl w k v x t He Hx) as (w' & Hz & He' & Hp). unfold new_l. rewrite Hz. cbn [bind].
  constructor. cbn [fst snd]. split; [exact He'|]. eapply nrel_N; [apply (plx_pl _ _ _ Hp)|reflexivity|reflexivity].
Qed.

Lemma hn_cons_ok w k v n n' r : ext h0 w -> nrel w n n' -> wref nrel w (hn_cons k v n r w) (Ret (n_cons k v n' r)).
Proof.
  intros He H. destruct (nrel_shape _ _ _ H); cbn [hn_cons n_cons].
  - apply wref_ret, nrel_Z.
  - apply (new_l_ok w k v (XL a) (NL l) r He). assumption.
  - apply (new_l_ok w k v (XS a) (NS s) r He). assumption.
  - apply (new_s_ok w k v r He).
Qed.
Lemma ht_cons_ok w that that' k v t t' r : ext h0 w -> plx w that that' -> trel w t t' ->
  wref trel w (ht_cons that k v t r w) (Ret (t_cons that' k v t' r)).
Proof.
  intros He Hx H. destruct t as [r0|n], t' as [r0'|n']; try contradiction; cbn [ht_cons t_cons].
  - apply (as_t_ok w _ _ (new_l_ok w k v that that' r He Hx)).
  - apply (as_t_ok w _ _ (hn_cons_ok w k v n n' r He H)).
Qed.

Lemma hlift_ok w a b t u lf rf (z : R) : ext h0 w -> pl w a t -> pl w b u ->
  wref nrel w (hlift a lf b rf z w) (let* c := cnode_lift t lf u rf in Ret (NRC c z)).
Proof.
  intros He (Hr & Hi) (Hr2 & Hi2). unfold hlift, cnode_lift.
  eapply wref_pure; [apply (hc_lift_ok lift_fuel w a t lf b u rf Hr Hr2)|].
  intros [c w'] c' (He' & Hrep & Hl & _ & Hout). constructor. cbn [fst snd]. split; [exact He'|].
  eapply nrel_N; [|reflexivity|reflexivity]. split; [exact Hrep|].
  intros x Hx. destruct (Hout x Hx) as [Hx2|[Hx2|Hx2]]; [|apply Hi, Hx2|apply Hi2, Hx2].
  apply HG. apply ext_len in He. lia.
Qed.

(** ** The loop *)
Context (rdef : R) (rd : R -> R -> R).

Lemma acc0_rel w : arel w (hacc0 rdef) (acc0 rdef).
Proof. repeat split. constructor. Qed.

Lemma hpush_ok w a a' i n t z r : arel w a a' -> pl w n t -> refines (arel w) (hpush rd a i n z r) (push rd a' i t z r).
Proof.
  intros (H1 & H2 & H3 & H4 & H5 & H6) Hp. unfold hpush, push. rewrite H2. apply refines_same; intros bit _. apply refines_same; intros bits _.
  constructor. repeat split; cbn [ha_size ha_bits ha_values ha_ul ha_ur ha_red a_size a_bits a_values a_ul a_ur a_red]; try congruence.
  apply Forall2_app; [exact H3|]. constructor; [exact Hp|constructor].
Qed.

Lemma hpush_new_ok w a a' i n n' : arel w a a' -> nrel w n n' -> refines (arel w) (hpush_new rd w a i n) (push_new rd a' i n').
Proof.
  intros Ha H. destruct (nrel_shape _ _ _ H) as [b c r Hp|b l r Hp|b s r Hp|r]; cbn [hpush_new push_new].
  - rewrite (h_size_ok w _ _ (proj1 Hp)). cbn [bind m_size]. apply hpush_ok; assumption.
  - apply plx_pl in Hp. cbn [hnext_node next_mnode] in Hp. rewrite (h_size_ok w _ _ (proj1 Hp)). cbn [bind m_size]. apply hpush_ok; assumption.
  - apply plx_pl in Hp. cbn [hnext_node next_mnode] in Hp. rewrite (h_size_ok w _ _ (proj1 Hp)). cbn [bind m_size]. apply hpush_ok; assumption.
  - destruct Ha as (H1 & H2 & H3 & H4 & H5 & H6). constructor. repeat split; cbn; try congruence.
Qed.

Lemma hset_ul_rel w a a' : arel w a a' -> arel w (hset_ul a) (set_ul a').
Proof. intros (H1 & H2 & H3 & H4 & H5 & H6). repeat split; cbn; assumption. Qed.
Lemma hset_ur_rel w a a' : arel w a a' -> arel w (hset_ur a) (set_ur a').
Proof. intros (H1 & H2 & H3 & H4 & H5 & H6). repeat split; cbn; assumption. Qed.

Definition step_ok (w0 : heap) (step : hacc R -> N -> heap -> outcome (hacc R * heap)) (step' : acc S X R -> N -> outcome (acc S X R)) : Prop :=
  forall w a a' i, ext w0 w -> arel w a a' -> wref arel w (step a i w) (step' a' i).

Lemma hloop_ok w0 step step' l : step_ok w0 step step' -> forall w a a', ext w0 w -> arel w a a' ->
  wref arel w (hloop step l a w) (loop step' l a').
Proof.
  intros Hs. induction l as [|i l IH]; intros w a a' He Ha; cbn [hloop loop]; [apply wref_ret, Ha|].
  eapply wref_bind; [apply (Hs w a a' i He Ha)|]. intros b w' b' He' Hb. apply IH; [eapply ext_trans; eassumption|exact Hb].
Qed.

Lemma hrun_loop_ok w0 st step step' : step_ok w0 step step' ->
  wref arel w0 (hrun_loop rdef rd st step w0) (run_loop rdef rd st step').
Proof.
  intros Hs. unfold hrun_loop, run_loop. destruct st; [apply (hloop_ok w0 _ _ _ Hs); [apply ext_refl|apply acc0_rel]|].
  unfold hhalves, halves. eapply wref_bind; [apply (hloop_ok w0 _ _ _ Hs); [apply ext_refl|apply acc0_rel]|].
  intros a w1 a' He1 Ha. eapply wref_bind; [apply (hloop_ok w0 _ _ _ Hs); [exact He1|apply acc0_rel]|].
  intros b w2 b' He2 Hb. apply (arel_ext _ w2) in Ha; [|exact He2].
  destruct Ha as (H1 & H2 & H3 & H4 & H5 & H6), Hb as (G1 & G2 & G3 & G4 & G5 & G6). rewrite H2, G2.
  apply wref_same. intros bits. apply wref_ret. repeat split; cbn; try congruence. apply Forall2_app; assumption.
Qed.

Lemma hfinish_ok w a a' : ext h0 w -> arel w a a' -> wref nrel w (hfinish a w) (finish a').
Proof.
  intros He (H1 & H2 & H3 & H4 & H5 & H6). unfold hfinish, finish. rewrite H1, H2, H6.
  assert (HC : wref nrel w
      (let* b := unwrap_ok (new_bia (a_bits a') (ha_values a) (a_size a')) in
       let (c, w1) := alloc w (CellC b) in Ret (HNN (HC c) (a_red a'), w1))
      (let* b := unwrap_ok (new_bia (a_bits a') (a_values a') (a_size a')) in Ret (NRC b (a_red a')))).
  { eapply wref_pure; [apply unwrap_ok_rel; apply (new_bia_rel (pl w) _ _ _ _ H3)|].
    intros b b' Hb. constructor. cbn [fst snd]. split; [apply ext_others_alloc|].
    eapply nrel_N; [apply (pl_alloc_C w b b' He Hb)|reflexivity|reflexivity]. }
  destruct H3 as [|n t l l' Hn Hl]; [apply wref_ret, nrel_Z|].
  destruct Hl as [|n2 t2 l2 l2' Hn2 Hl2]; [|destruct n, t; exact HC].
  pose proof Hn as (Hr & _). destruct Hr; [exact HC| |].
  - apply wref_ret. eapply nrel_N; [exact Hn|reflexivity|reflexivity].
  - apply wref_ret. eapply nrel_N; [exact Hn|reflexivity|reflexivity].
Qed.

End W.

(** * Reading *)
Section Placed.
Context {K V : Type} (G : addr -> Prop).
Notation heap := (heap K V).

Definition oks (w : heap) (s : dleaf K V) : Prop := pl G w (HS (ds_addr s)) (MS (strip_s s)).
Fixpoint okl (w : heap) (l : dlist K V) : Prop :=
  pl G w (HL (dl_addr l)) (ML (strip_l l)) /\
  match l with DLL _ _ _ n _ => okl w n | DLS _ _ _ s _ => oks w s end.
Definition okx (w : heap) (x : dnext K V) : Prop := match x with DNL l => okl w l | DNS s => oks w s end.
Inductive okn (w : heap) : dnode K V -> Prop :=
| okC a bits vs x : pl G w (HC a) (strip (DC a (BIA bits vs x))) -> Forall (okn w) vs -> okn w (DC a (BIA bits vs x))
| okL l : okl w l -> okn w (DL l)
| okS s : oks w s -> okn w (DS s).

Lemma oks_ext w w' s : oks w s -> ext w w' -> oks w' s.
Proof. apply pl_ext. Qed.
Lemma okl_ext w w' l : okl w l -> ext w w' -> okl w' l.
Proof.
  induction l; cbn [okl]; intros (H1 & H2) He; (split; [eapply pl_ext; eassumption|]); [auto|eapply oks_ext; eassumption].
Qed.
Lemma okx_ext w w' x : okx w x -> ext w w' -> okx w' x.
Proof. destruct x; [apply okl_ext|apply oks_ext]. Qed.
Lemma okn_ext w w' n : okn w n -> ext w w' -> okn w' n.
Proof.
  induction n as [a bits vs x IH|l|s] using dnode_ind'; intros H He; inversion H as [? ? ? ? Hp HF|? Hl|? Hs]; subst; constructor.
  - eapply pl_ext; eassumption.
  - rewrite Forall_forall in *. auto.
  - eapply okl_ext; eassumption.
  - eapply oks_ext; eassumption.
Qed.

Lemma okn_pl w n : okn w n -> pl G w (d_node n) (strip n).
Proof. intros [a bits vs x Hp _|l Hl|s Hs]; [exact Hp| |exact Hs]. destruct l; apply Hl. Qed.
Lemma okl_pl w l : okl w l -> plx G w (XL (dl_addr l)) (NL (strip_l l)).
Proof. intros H. apply pl_plx_L. destruct l; apply H. Qed.
Lemma oks_pl w s : oks w s -> plx G w (XS (ds_addr s)) (NS (strip_s s)).
Proof. intros H. apply pl_plx_S, H. Qed.
Lemma okx_pl w x : okx w x -> plx G w (dn_next x) (strip_x x).
Proof. destruct x; [apply okl_pl|apply oks_pl]. Qed.
Lemma okl_next w l : okl w l -> okx w (dl_next l).
Proof. destruct l; intros (_ & H); exact H. Qed.
Lemma okx_node w x : okx w x -> okn w (dn_node x).
Proof. destruct x; intros H; constructor; exact H. Qed.

Lemma hs_deref_ok h a s : rep_s h a s -> (forall x, inside h (HS a) x -> G x) ->
  exists d, hs_deref h a = Ret d /\ strip_s d = s /\ ds_addr d = a /\ oks h d.
Proof.
  intros H Hi. exists (DSN a (s_key s) (s_value s)). unfold hs_deref. rewrite (get_s_eq _ _ _ H). cbn [bind fst snd].
  assert (Hs : strip_s (DSN a (s_key s) (s_value s)) = s) by (destruct s; reflexivity).
  split; [reflexivity|]. split; [exact Hs|]. split; [reflexivity|]. unfold oks. rewrite Hs. split; [constructor; exact H|exact Hi].
Qed.

Lemma hl_deref_ok h l : forall a fuel, rep_l h a l -> (a < fuel)%nat -> (forall x, inside h (HL a) x -> G x) ->
  exists d, hl_deref fuel h a = Ret d /\ strip_l d = l /\ dl_addr d = a /\ okl h d.
Proof.
  induction l as [k v l IH z|k v s z]; intros a [|fuel] H Hf Hi; try lia; cbn [hl_deref].
  - pose proof (rep_LL_inv _ _ _ _ _ _ H) as (b & Hn & Hlt & Hb). rewrite (get_l_eq _ _ _ _ _ _ Hn). cbn [bind fst snd].
    destruct (IH b fuel Hb) as (d & Hd & Hs & Ha & Ho); [lia| |].
    { intros x Hx. apply Hi. eapply in_L; [exact Hn|exact Hx]. }
    rewrite Hd. cbn [bind]. exists (DLL a k v d z). split; [reflexivity|]. cbn [strip_l dl_addr okl]. rewrite Hs.
    repeat split; try assumption. constructor. exact H.
  - pose proof (rep_LS_inv _ _ _ _ _ _ H) as (b & Hn & Hlt & Hb). rewrite (get_l_eq _ _ _ _ _ _ Hn). cbn [bind fst snd].
    destruct (hs_deref_ok h b s Hb) as (d & Hd & Hs & Ha & Ho).
    { intros x Hx. apply Hi. eapply in_L; [exact Hn|exact Hx]. }
    rewrite Hd. cbn [bind]. exists (DLS a k v d z). split; [reflexivity|]. cbn [strip_l dl_addr okl]. rewrite Hs.
    repeat split; try apply Ho; try assumption. constructor. exact H.
Qed.

Lemma h_deref_ok h fuel : forall n t, rep h n t -> (addr_of n < fuel)%nat -> (forall x, inside h n x -> G x) ->
  exists d, h_deref fuel h n = Ret d /\ strip d = t /\ d_node d = n /\ okn h d.
Proof.
  induction fuel as [|fuel IH]; intros n t H Hf Hi; [lia|]. destruct n as [a|a|a]; cbn [h_deref].
  - pose proof (rep_C_inv _ _ _ H) as (bits & hs & ts & x & -> & Hn & HF & Hlt).
    rewrite (get_c_eq _ _ _ Hn). cbn [bind bvalues bbits bextra].
    assert (Hc : exists ds, every (h_deref fuel h) hs = Ret ds /\ map strip ds = ts /\ map d_node ds = hs /\ Forall (okn h) ds).
    { assert (Hin : forall c, In c hs -> (addr_of c < a)%nat /\ (forall y, inside h c y -> G y)).
      { intros c Hc. split; [rewrite Forall_forall in Hlt; apply Hlt, Hc|]. intros y Hy. apply Hi. eapply in_C; [exact Hn|exact Hc|exact Hy]. }
      clear Hn Hlt H Hi. cbn in Hf. induction HF as [|c t cs ts' Hct HF IHF]; [exists []; repeat split; constructor|].
      destruct (Hin c (or_introl eq_refl)) as (Hl & Hy). destruct (IH c t Hct) as (d & Hd & Hs & Ha & Ho); [lia|exact Hy|].
      destruct IHF as (ds & Hds & Hss & Has & Hos); [intros c' Hc'; apply Hin; right; exact Hc'|].
      exists (d :: ds). cbn [every]. rewrite Hd. cbn [bind]. rewrite Hds. cbn [bind map]. rewrite Hs, Hss, Ha, Has.
      repeat split. constructor; assumption. }
    destruct Hc as (ds & Hds & Hss & _ & Hos). rewrite Hds. cbn [bind]. exists (DC a (BIA bits ds x)).
    split; [reflexivity|]. cbn [strip d_node]. rewrite Hss. split; [reflexivity|]. split; [reflexivity|].
    constructor; [|exact Hos]. cbn [strip]. rewrite Hss. split; [exact H|exact Hi].
  - apply rep_L_inv in H. destruct H as (l & -> & H). destruct (hl_deref_ok h l a (S fuel) H Hf Hi) as (d & Hd & Hs & Ha & Ho).
    rewrite Hd. cbn [bind]. exists (DL d). cbn [strip d_node]. rewrite Hs, Ha. repeat split. constructor. exact Ho.
  - apply rep_S_inv in H. destruct H as (s & -> & H). destruct (hs_deref_ok h a s H Hi) as (d & Hd & Hs & Ha & Ho).
    rewrite Hd. cbn [bind]. exists (DS d). cbn [strip d_node]. rewrite Hs, Ha. split; [reflexivity|]. split; [reflexivity|]. split; [reflexivity|]. constructor. exact Ho.
Qed.

End Placed.

(** Arrays of children with what is done to them. *)
Lemma bat_bit_rel {E : Env} {A B} (P : A -> B -> Prop) b b' i : brel P b b' ->
  refines (rres P) (bat_bit_index fw b i) (bat_bit_index fw b' i).
Proof.
  intros (Hb & _ & Hv). unfold bat_bit_index. destruct (nth_bit fw i) as [bit|e]; [|constructor; constructor].
  rewrite Hb. destruct (bit_index (bbits b') bit) as [j|e]; [|constructor; constructor].
  unfold nthN. destruct (nth_rel P _ _ Hv (N.to_nat j)); cbn [unwrap bind]; constructor. constructor. assumption.
Qed.

Lemma brel_children {A B A' B'} (g : A -> B) (f : A -> A') (f' : B -> B') (P : A' -> B' -> Prop) bits vs x :
  (forall c, In c vs -> P (f c) (f' (g c))) ->
  brel P (BIA bits (map f vs) x) (BIA bits (map f' (map g vs)) x).
Proof.
  intros H. split; [reflexivity|]. split; [reflexivity|]. cbn [bvalues].
  induction vs as [|c vs IH]; cbn [map]; constructor; [apply H; left; reflexivity|apply IH; intros c' Hc; apply H; right; exact Hc].
Qed.

(** * transform *)
Section Transform.
Context {E : Env} {K V R : Type} {NZ : Noise K V}.
Context (rdef : R) (rd : R -> R -> R).
Notation heap := (heap K V).
Context (h0 : heap) (G : addr -> Prop) (HG : forall x, (length h0 <= x)%nat -> G x).

Lemma hs_transform_ok (op : transform_op (K * V) V R) s w : ext h0 w -> oks G w s ->
  wref (trel G) w (hs_transform op s w) (Ret (s_transform op (strip_s s))).
Proof.
  intros He Hs. unfold hs_transform, s_transform. rewrite strip_entry_s. cbn [fst snd].
  destruct (tcall op _) as [r|v r|r].
  - apply wref_ret. reflexivity.
  - apply (as_t_ok G w _ _ (new_s_ok h0 G HG w _ v r He)).
  - apply wref_ret. apply nrel_Z.
Qed.

Lemma ltr_eq (this : lnode K V) (result : vres V R) next : l_transform_result rd this result next =
  match result with
  | VUnchanged lr =>
      match next with
      | TU rr => TU (rd lr rr)
      | TN n => TN (n_cons (l_key this) (l_value this) n (rd lr (nred n)))
      end
  | VTransformed lv lr =>
      match next with
      | TU rr => TN (NRL (l_new (l_key this) lv (l_next this)) (rd lr rr))
      | TN n => TN (n_cons (l_key this) lv n (rd lr (nred n)))
      end
  | VDropped lr =>
      match next with
      | TU rr => TN (next_nres (l_next this) (rd lr rr))
      | TN n => TN (match n with NRC _ _ => NRZ (rd lr (nred n)) | _ => n_with n (rd lr (nred n)) end)
      end
  end.
Proof. destruct result, next as [|[]]; try reflexivity. cbn. destruct (l_next this); reflexivity. Qed.

Lemma hn_keep_rel {S X} (P : addr -> Prop) (w : Heap.heap S X) (n : hnres R) n' r : nrel P w n n' ->
  nrel P w (hn_keep n r) (match n' with NRC _ _ => NRZ r | _ => n_with n' r end).
Proof.
  intros H. pose proof (hn_with_rel P w n n' r H) as Hw. destruct (nrel_shape _ _ _ _ H); try exact Hw. apply nrel_Z.
Qed.

Lemma hl_transform_result_ok this result next next' w : ext h0 w -> okl G w this -> trel G w next next' ->
  wref (trel G) w (hl_transform_result rd this result next w) (Ret (l_transform_result rd (strip_l this) result next')).
Proof.
  intros He Ho Hn. unfold hl_transform_result. rewrite ltr_eq, strip_entry_l.
  pose proof (okx_pl _ _ _ (okl_next _ _ _ Ho)) as Hx. rewrite strip_next in Hx.
  destruct next as [rr|n], next' as [rr'|n']; try contradiction.
  - cbn in Hn. subst rr'. destruct result as [lr|lv lr|lr].
    + apply wref_ret. reflexivity.
    + apply (as_t_ok G w _ _ (new_l_ok h0 G HG w _ lv _ _ (rd lr rr) He Hx)).
    + apply wref_ret. apply nrel_next, Hx.
  - cbn [trel] in Hn. rewrite <- (hnred_rel _ _ _ _ Hn). destruct result as [lr|lv lr|lr].
    + apply (as_t_ok G w _ _ (hn_cons_ok h0 G HG w _ _ n n' _ He Hn)).
    + apply (as_t_ok G w _ _ (hn_cons_ok h0 G HG w _ _ n n' _ He Hn)).
    + apply wref_ret. apply hn_keep_rel, Hn.
Qed.

Lemma hl_transform_ok (op : transform_op (K * V) V R) l : forall w, ext h0 w -> okl G w l ->
  wref (trel G) w (hl_transform rd op l w) (Ret (l_transform rd op (strip_l l))).
Proof.
  induction l as [a k v n IH z|a k v s z]; intros w He Ho; cbn [hl_transform l_transform strip_l];
    (destruct op as [f|r|r]; [|apply wref_ret; reflexivity|apply wref_ret; apply nrel_Z]).
  - eapply wref_let; [apply (IH w He (proj2 Ho))|]. intros t w' He' Ht.
    apply (hl_transform_result_ok (DLL a k v n z)); [eapply ext_trans; eassumption|eapply okl_ext; eassumption|exact Ht].
  - eapply wref_let; [apply (hs_transform_ok _ s w He (proj2 Ho))|]. intros t w' He' Ht.
    apply (hl_transform_result_ok (DLS a k v s z)); [eapply ext_trans; eassumption|eapply okl_ext; eassumption|exact Ht].
Qed.

Lemma hn_transform_ok (op : transform_op (K * V) V R) x w : ext h0 w -> okx G w x ->
  wref (trel G) w (hn_transform rd op x w) (Ret (n_transform rd op (strip_x x))).
Proof. destruct x; [apply hl_transform_ok|apply hs_transform_ok]. Qed.

Lemma h_transform_ok st (op : transform_op (K * V) V R) n : forall w, ext h0 w -> okn G w n ->
  wref (trel G) w (h_transform rdef rd st op n w) (m_transform rdef rd st op (strip n)).
Proof.
  induction n as [a bits vs x IH|l|s] using dnode_ind'; intros w He Ho.
  - destruct op as [f|r|r]; [|apply wref_ret; reflexivity|apply wref_ret; apply nrel_Z].
    cbn [h_transform m_transform strip].
    eapply wref_bind.
    + apply (hrun_loop_ok G). intros w1 b b' i He1 Hb. unfold hc_transform_step, c_transform_step.
      inversion Ho as [? ? ? ? _ HF| |]; subst. rewrite Forall_forall in IH, HF.
      eapply wref_pure.
      * apply (bat_bit_rel (fun p q => fst q = strip (fst p) /\ okn G w (fst p) /\
                 forall w1, ext w w1 -> wref (trel G) w1 (snd p w1) (snd q))).
        apply (brel_children strip). intros c Hc. cbn [fst snd]. split; [reflexivity|]. split; [apply HF, Hc|].
        intros w2 He2. apply IH; [exact Hc|eapply ext_trans; eassumption|eapply okn_ext; [apply HF, Hc|exact He2]].
      * intros o o' Hoo. destruct Hoo as [[c run] [c' res] (Hs & Hok & Hrun)|e]; [|apply wref_ret, Hb].
        cbn [fst snd] in *. subst c'. eapply wref_bind; [apply (Hrun w1 He1)|]. intros t w2 t' He2 Ht.
        apply (arel_ext _ _ w2) in Hb; [|exact He2].
        destruct t as [r|n], t' as [r'|n']; try contradiction.
        -- cbn in Ht. subst r'. rewrite strip_size.
           pose proof (okn_pl _ _ _ (okn_ext _ _ w2 _ Hok (ext_trans _ _ _ He1 He2))) as Hp.
           pose proof (hpush_ok G rd w2 b b' i (d_node c) (strip c) (m_size (strip c)) r Hb Hp) as Hpush.
           inversion Hpush; cbn [bind]; constructor. split; [apply ext_refl|assumption].
        -- eapply wref_pure; [apply (hpush_new_ok G rd w2 b b' i n n' Hb Ht)|]. intros d d' Hd. apply wref_ret. apply hset_ul_rel, Hd.
    + intros b w1 b' He1 Hb. assert (He2 : ext h0 w1) by (eapply ext_trans; eassumption).
      replace (a_ul b') with (ha_ul b) by apply Hb. destruct (ha_ul b).
      * apply wref_ret. apply Hb.
      * apply as_t_ok. apply (hfinish_ok h0 G HG w1 b b' He2 Hb).
  - cbn [h_transform m_transform strip]. inversion Ho; subst. apply hl_transform_ok; assumption.
  - cbn [h_transform m_transform strip]. inversion Ho; subst. apply hs_transform_ok; assumption.
Qed.

End Transform.

(** * transmute *)
Section Transmute.
Context {E : Env} {K V S X R : Type} {NZ : Noise S X}.
Context (rdef : R) (rd : R -> R -> R).
Notation heap := (heap S X).
Context (h0 : heap) (G : addr -> Prop) (HG : forall x, (length h0 <= x)%nat -> G x).

Lemma hk_nres_ok (r : kres S X R) w : ext h0 w -> wref (nrel G) w (hk_nres r w) (Ret (k_nres r)).
Proof. intros He. destruct r as [k v r|r]; [apply (new_s_ok h0 G HG w k v r He)|apply wref_ret, nrel_Z]. Qed.

Lemma hs_transmute_ok (op : transmute_op (K * V) S X R) s w : ext h0 w ->
  wref (nrel G) w (hs_transmute op s w) (Ret (s_transmute op (strip_s s))).
Proof. intros He. unfold hs_transmute. rewrite strip_entry_s. apply (hk_nres_ok _ w He). Qed.

Lemma lmr_eq (result : kres S X R) (next : nres S X R) : l_transmute_result rd result next =
  match result with
  | KTransmuted k v lr => n_cons k v next (rd lr (nred next))
  | KDropped lr => match next with NRC _ _ => NRZ (rd lr (nred next)) | _ => n_with next (rd lr (nred next)) end
  end.
Proof. destruct result, next; reflexivity. Qed.

Lemma hl_transmute_result_ok result next next' w : ext h0 w -> nrel G w next next' ->
  wref (nrel G) w (hl_transmute_result rd result next w) (Ret (l_transmute_result rd result next')).
Proof.
  intros He Hn. unfold hl_transmute_result. rewrite lmr_eq, <- (hnred_rel _ _ _ _ Hn). destruct result as [k v lr|lr].
  - apply (hn_cons_ok h0 G HG w _ _ _ _ _ He Hn).
  - apply wref_ret. apply hn_keep_rel, Hn.
Qed.

Lemma hl_transmute_ok (op : transmute_op (K * V) S X R) l : forall w, ext h0 w ->
  wref (nrel G) w (hl_transmute rd op l w) (Ret (l_transmute rd op (strip_l l))).
Proof.
  induction l as [a k v n IH z|a k v s z]; intros w He; cbn [hl_transmute l_transmute strip_l];
    (destruct op as [f|r]; [|apply wref_ret; apply nrel_Z]).
  - eapply wref_let; [apply (IH w He)|]. intros t w' He' Ht.
    apply hl_transmute_result_ok; [eapply ext_trans; eassumption|exact Ht].
  - eapply wref_let; [apply (hs_transmute_ok _ s w He)|]. intros t w' He' Ht.
    apply hl_transmute_result_ok; [eapply ext_trans; eassumption|exact Ht].
Qed.

Lemma hn_transmute_ok (op : transmute_op (K * V) S X R) x w : ext h0 w ->
  wref (nrel G) w (hn_transmute rd op x w) (Ret (n_transmute rd op (strip_x x))).
Proof. destruct x; [apply hl_transmute_ok|apply hs_transmute_ok]. Qed.

Lemma h_transmute_ok (op : transmute_op (K * V) S X R) n : forall w, ext h0 w ->
  wref (nrel G) w (h_transmute rdef rd op n w) (m_transmute rdef rd op (strip n)).
Proof.
  induction n as [a bits vs x IH|l|s] using dnode_ind'; intros w He.
  - destruct op as [f|r]; [|apply wref_ret; apply nrel_Z].
    cbn [h_transmute m_transmute strip].
    eapply wref_bind.
    + apply (hloop_ok G w); [|apply ext_refl|apply acc0_rel]. intros w1 b b' i He1 Hb. unfold hc_transmute_step, c_transmute_step.
      rewrite Forall_forall in IH. eapply wref_pure.
      * apply (bat_bit_rel (fun p q => forall w1, ext w w1 -> wref (nrel G) w1 (p w1) q)).
        apply (brel_children strip). intros c Hc w2 He2. apply IH; [exact Hc|eapply ext_trans; eassumption].
      * intros o o' Hoo. destruct Hoo as [run res Hrun|e]; [|apply wref_ret, Hb].
        eapply wref_bind; [apply (Hrun w1 He1)|]. intros t w2 t' He2 Ht. apply (arel_ext _ _ w2) in Hb; [|exact He2].
        pose proof (hpush_new_ok G rd w2 b b' i t t' Hb Ht) as Hpush.
        inversion Hpush; cbn [bind]; constructor. split; [apply ext_refl|assumption].
    + intros b w1 b' He1 Hb. assert (He2 : ext h0 w1) by (eapply ext_trans; eassumption).
      pose proof Hb as (_ & H2 & H3 & _). rewrite (len_rel _ _ _ H3), H2.
      destruct (_ =? _); [|constructor]. apply (hfinish_ok h0 G HG w1 b b' He2 Hb).
  - apply hl_transmute_ok; assumption.
  - apply hs_transmute_ok; assumption.
Qed.

End Transmute.
