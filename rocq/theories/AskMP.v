(** transmute, given how single calls are answered. *)
From Coq Require Import NArith Arith List Bool Lia ZifyBool ZifyN ZifyNat Permutation.
From Verif Require Import Base Words WordsP Flag FlagP Bia BiaP Node Inv InsertP Api Trans Transform Profile Eff EffP EffTP EffApi AskP AskHashP AskT SpecAskT JoinP LoopP TransformP AskTP AskTTP.
Import ListNotations.
Open Scope N_scope.

Section Transmute.
Context {E : Env} {Q : Type} {A : Q -> Type} {K V S X R C : Type}.
Notation T := (kres S X R).
Notation event := (event (A := A)).
Notation trace := (list event).
Implicit Types tr t : trace.
Context (good : event -> Prop).
Context (see : event -> item ((K * V) * T) C R) (told : event -> list (K * V)).
Context (leafK : N -> N -> list (K * V) -> Prop) (leafS : N -> N -> list (S * X) -> Prop) (deep : N -> N -> Prop).

Definition mcost (i : (K * V) * T) : list C := [].
Definition mbecomes tr (i : (K * V) * T) (out : list (S * X)) : Prop := out = kbecomes i /\ exists e, In e tr /\ see e = ItOp i.
Definition mall (i : (K * V) * T) : bool := true.

Notation prim := (prim good told).
Context (def : prog A R) (red : R -> R -> prog A R) (f : K * V -> prog A T).
Context (Hdef : prim def [] (fun r e => see e = ItDefault r)).
Context (Hred : forall a b, prim (red a b) [] (fun r e => see e = ItReduce a b r)).
Context (Hop : forall x, prim (f x) [x] (fun a e => see e = ItOp (x, a))).
Context (Hleaf : forall d p es is outs t, leafK d p es -> map fst is = es -> Forall2 (mbecomes t) is outs -> Forall good t -> leafS d p (concat outs)).
Context (Hup : forall d p i l, deep d p -> leafS (d + 1) (p + i * 2 ^ off d) l -> leafS d p l).

Notation settled := (settled see kred mcost).
Notation done := (done see kred mcost mall mbecomes).
Notation shapedK := (shaped leafK deep).
Notation shapedS := (shaped leafS deep).
Notation ends := (ends told).

Lemma mmono t t' i out : (forall e, In e t -> In e t') -> mbecomes t i out -> mbecomes t' i out.
Proof. intros H [H1 (e & H2 & H3)]. split; [exact H1|]. exists e. auto. Qed.
Lemma mall_true is : true = forallb mall is.
Proof. induction is; [reflexivity|assumption]. Qed.

Definition mdone (es : list (K * V)) t (y : nres S X R) : Prop :=
  done es (nnode y) (nred y) true t /\ (forall n', nnode y = Some n' -> leafy n').

Lemma as_transmute_ends s : gs good (as_transmute (EMGeneric f) s) (ends (s_visit s) (mdone (s_visit s))).
Proof.
  unfold as_transmute. cbn [emcall]. apply (ends_prim good told (s_visit s) _ _ _ _ (Hop _)). intros o e He Hs. apply ends_ret.
  assert (Hst : settled [e] [((s_key s, s_value s), o)] (kred ((s_key s, s_value s), o)))
    by (apply (settled_op see kred mcost e _ [] [] Hs); [intros ? []|reflexivity]).
  split.
  - exists [((s_key s, s_value s), o)], [kbecomes ((s_key s, s_value s), o)]. rewrite app_nil_r.
    destruct o; (split; [exact Hst|]); repeat split; try (constructor; [split; [reflexivity|exists e; split; [left; reflexivity|exact Hs]]|constructor]); intros _; unfold clones; cbn; rewrite Hs; reflexivity.
  - destruct o; [intros n' [= <-]; exact I|discriminate].
Qed.

Lemma mfront k v o es on r u t e e' x : done es on r u t -> u = true -> see e = ItOp ((k, v), o) -> see e' = ItReduce (kred ((k, v), o)) r x ->
  forall y : nres S X R, nred y = x -> ovisit (nnode y) = kbecomes ((k, v), o) ++ ovisit on -> (forall n', nnode y = Some n' -> leafy n') ->
  mdone ((k, v) :: es) (t ++ [e] ++ [e']) y.
Proof.
  intros (is & outs & D1 & D2 & D3 & D4 & D5 & D6) Hu He He' y Hy Hv Hl. split; [|exact Hl].
  exists (((k, v), o) :: is), (kbecomes ((k, v), o) :: outs). split; [|split; [|split; [|split; [|split]]]].
  - rewrite Hy. change (((k, v), o) :: is) with ([((k, v), o)] ++ is).
    eapply settled_perm; [|eapply settled_reduce; [apply (settled_op see kred mcost e ((k, v), o) [] [] He); [intros ? []|reflexivity]|exact D1|exact He']].
    cbn [app]. transitivity ((e :: t) ++ [e']); [reflexivity|]. change [e; e'] with ([e] ++ [e']). rewrite app_assoc. apply Permutation_app_tail.
    change (e :: t) with ([e] ++ t). apply Permutation_app_comm.
  - cbn [map fst]. rewrite D2. reflexivity.
  - constructor; [split; [reflexivity|exists e; split; [rewrite in_app_iff; cbn; auto|exact He]]|]. eapply becomes_mono; [exact mmono| |exact D3]. intros z Hz. apply in_or_app. auto.
  - cbn [concat]. rewrite Hv, D4. reflexivity.
  - apply mall_true.
  - intros _. rewrite !clones_app, D6 by assumption. unfold clones. cbn. rewrite He, He'. reflexivity.
Qed.

Lemma al_mresult_ends k v es o next t e : mdone es t next -> see e = ItOp ((k, v), o) ->
  gs good (al_transmute_result red o next) (ends [] (fun t' y => mdone ((k, v) :: es) (t ++ [e] ++ t') y)).
Proof.
  intros [HD HL] He. pose proof (fun on r e' x HD Hr y => mfront k v o es on r true t e e' x HD eq_refl He Hr y) as HG.
  destruct o as [lk lv lr|lr]; cbn [al_transmute_result]; destruct next as [c rr|n rr|s rr|rr]; cbn [nnode nred] in HD, HL;
    try (exfalso; exact (HL _ eq_refl));
    (apply (ends_prim good told [] _ _ _ _ (Hred _ _)); intros x e' _ He'; apply ends_ret; rewrite app_nil_r;
     apply (HG _ _ e' x HD He'); [reflexivity|reflexivity|]; intros n' [= <-]).
  - split; [reflexivity|]. exact (HL _ eq_refl).
  - reflexivity.
  - exact I.
  - exact (HL _ eq_refl).
  - exact I.
Qed.

Lemma al_transmute_ends l : gs good (al_transmute red (EMGeneric f) l) (ends (rev (l_visit l)) (mdone (l_visit l))).
Proof.
  induction l as [k v n IH sz|k v s sz]; cbn [al_transmute].
  - cbn [l_visit rev]. eapply ends_bind; [exact IH|]. intros t y Ht Hy. cbn beta in Hy.
    cbn [emcall]. apply (ends_prim good told _ _ _ _ _ (Hop _)). intros o e He Hs. apply (al_mresult_ends k v (l_visit n) o y t e Hy Hs).
  - change (rev (l_visit (LNS k v s sz))) with (s_visit s ++ [(k, v)]). eapply ends_bind; [apply as_transmute_ends|]. intros t y Ht Hy.
    cbn [emcall]. apply (ends_prim good told _ _ _ _ _ (Hop _)). intros o e He Hs. apply (al_mresult_ends k v (s_visit s) o y t e Hy Hs).
Qed.

Lemma mdone_leaf d p n t y : leafK d p (m_visit n) -> Forall good t -> mdone (m_visit n) t y ->
  done (m_visit n) (nnode y) (nred y) true t /\ (forall n', nnode y = Some n' -> shapedS d p n').
Proof.
  intros Hn Ht [HD HL]. split; [exact HD|]. intros n' Hn'. apply leafy_shaped; [apply HL; assumption|].
  destruct HD as (is & outs & D1 & D2 & D3 & D4 & D5 & D6). rewrite Hn' in D4. cbn [ovisit] in D4. rewrite D4. eapply Hleaf; eassumption.
Qed.

Lemma am_transmute_ends n : forall d p, shapedK d p n ->
  gs good (am_transmute def red (EMGeneric f) n) (ends (back n)
    (fun t y => done (m_visit n) (nnode y) (nred y) true t /\ (forall n', nnode y = Some n' -> shapedS d p n'))).
Proof.
  induction n as [bits values x IH|l|s] using mnode_ind'; intros d p Hs; cbn [am_transmute].
  - rewrite Forall_forall in IH. inversion Hs as [| |? ? ? ? ? Hd Hok Hne Hx Hch]; subst. rewrite <- (app_nil_r (back _)).
    rewrite (back_C _ _ _ Hok). eapply ends_bind; [eapply (aloop_ends good see told kred mcost mall mbecomes leafK leafS deep def red Hdef Hred mmono Hleaf Hup d p bits values)|].
    + intros lo i tr a Hlo Hi Ht HI. unfold ac_transmute_step.
      eapply ends_lift; [apply bat_bit_index_slot; assumption|]. destruct (getv bits values i) as [c|] eqn:Hg; cbn [oback].
      * rewrite <- (app_nil_r (back c)). eapply ends_bind; [exact (IH c (getv_in _ _ _ _ Hg) _ _ (Hch i c Hg))|].
        intros t y Hgt [HD Hsh]. cbn beta in HD, Hsh.
        assert (Hsl : m_visit c = slot bits values i) by (unfold slot; rewrite Hg; reflexivity). rewrite Hsl in HD.
        apply (apush_new_ends good see told kred mcost mall mbecomes leafK leafS deep red Hred mmono Hleaf Hup d p bits values lo i tr t a y true); auto.
      * apply ends_ret. rewrite app_nil_r. apply (inv_skip good see kred mcost mall mbecomes leafK leafS deep mmono Hleaf Hup); assumption.
    + lia.
    + lia.
    + intros t a Ht HI. cbn beta in HI.
      assert (HV : m_visit (MC (BIA bits values (lenN (concat (map m_visit values))))) = flat_map (slot bits values) (range 0 (max_ones fw))) by (apply visit_C; assumption).
      assert (Hcnt : lenN (a_values a) =? count_ones (a_bits a) = true).
      { apply N.eqb_eq. symmetry. destruct HI as [[_ H] _]. rewrite H. reflexivity. }
      rewrite Hcnt. destruct (finish_shaped see kred mcost mall mbecomes leafS deep Hup d p bits values Hd _ _ _ HI) as (n & Hn & Hr & Hv & Hsh).
      rewrite Hn. cbn [lift]. apply ends_ret. rewrite app_nil_r.
      destruct HI as (_ & _ & _ & _ & is & outs & H5 & H6 & H7 & H8 & H9 & H10).
      split; [|exact Hsh]. exists is, outs. rewrite HV, <- H6, Hr, Hv, H8. pose proof (mall_true is) as Ha. rewrite <- Ha in H9. pose proof (fun _ : true = true => H10 H9). auto 8.
  - inversion Hs; subst. eapply ends_weak; [apply al_transmute_ends|]. intros t y Ht Hy. apply mdone_leaf; assumption.
  - inversion Hs; subst. eapply ends_weak; [apply as_transmute_ends|]. intros t y Ht Hy. apply mdone_leaf; assumption.
Qed.

End Transmute.
