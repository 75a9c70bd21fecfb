(** transform and transmute, given how single calls are answered. *)
From Coq Require Import NArith Arith List Bool Lia ZifyBool ZifyN ZifyNat Permutation.
From Verif Require Import Base Words WordsP Flag FlagP Bia BiaP Node Inv InsertP Api Trans Transform Profile Eff EffP EffTP EffApi AskP AskHashP AskT SpecAskT JoinP LoopP TransformP AskTP.
Import ListNotations.
Open Scope N_scope.

Section Transform.
Context {E : Env} {Q : Type} {A : Q -> Type} {K V R C : Type}.
Notation T := (vres V R).
Notation event := (event (A := A)).
Notation trace := (list event).
Implicit Types tr t : trace.
Context (good : event -> Prop).
Context (see : event -> item ((K * V) * T) C R) (told : event -> list (K * V)).
Context (kc : K -> C) (vc : V -> C) (Kc : event -> K -> K -> Prop) (Vc : event -> V -> V -> Prop).
Context (becomes : trace -> (K * V) * T -> list (K * V) -> Prop).
Context (leaf : N -> N -> list (K * V) -> Prop) (deep : N -> N -> Prop).

Definition tcost (i : (K * V) * T) : list C :=
  match snd i with
  | VUnchanged _ => [kc (fst (fst i)); vc (snd (fst i))]
  | VTransformed _ _ => [kc (fst (fst i))]
  | VDropped _ => []
  end.

Notation prim := (prim good told).
Context (def : prog A R) (red : R -> R -> prog A R) (ck : K -> prog A K) (cv : V -> prog A V) (f : K * V -> prog A T).
Context (Hdef : prim def [] (fun r e => see e = ItDefault r)).
Context (Hred : forall a b, prim (red a b) [] (fun r e => see e = ItReduce a b r)).
Context (Hck : forall k, prim (ck k) [] (fun k' e => see e = ItClone (kc k) /\ Kc e k k')).
Context (Hcv : forall v, prim (cv v) [] (fun v' e => see e = ItClone (vc v) /\ Vc e v v')).
Context (Hop : forall x, prim (f x) [x] (fun a e => see e = ItOp (x, a))).
Context (Hmono : forall t t' i out, (forall e, In e t -> In e t') -> becomes t i out -> becomes t' i out).
Context (Hsame : forall t x r, becomes t (x, VUnchanged r) [x]).
Context (Hclone : forall t k v r k' v' e e', In e t -> Kc e k k' -> In e' t -> Vc e' v v' -> becomes t ((k, v), VUnchanged r) [(k', v')]).
Context (Hnew : forall t k v w r k' e, In e t -> Kc e k k' -> becomes t ((k, v), VTransformed w r) [(k', w)]).
Context (Hdrop : forall t x r, becomes t (x, VDropped r) []).
Context (Hleaf : forall d p es is outs t, leaf d p es -> map fst is = es -> Forall2 (becomes t) is outs -> Forall good t -> leaf d p (concat outs)).
Context (Hup : forall d p i l, deep d p -> leaf (d + 1) (p + i * 2 ^ off d) l -> leaf d p l).

Notation settled := (settled see vred tcost).
Notation done := (done see vred tcost kept becomes).
Notation shaped := (shaped leaf deep).
Notation ends := (ends told).

(** A leaf done. *)
Definition ldone (n : mnode K V) t (y : tres K V R) : Prop :=
  done (m_visit n) (tout n y) (tred y) (tu y) t /\ (forall n', tout n y = Some n' -> leafy n').

Lemma as_transform_ends s :
  gs good (as_transform ck (EGeneric f) s) (ends (s_visit s) (ldone (MS s))).
Proof.
  unfold as_transform. cbn [etcall]. apply (ends_prim good told (s_visit s) _ _ _ _ (Hop _)). intros o e He Hs.
  destruct o as [r|v r|r].
  - apply ends_ret. split; [|intros n' [= <-]; exact I]. exists [((s_key s, s_value s), VUnchanged r)], [[(s_key s, s_value s)]].
    split; [apply (settled_op see vred tcost e _ [] [kc (s_key s); vc (s_value s)] Hs); [intros ? []|reflexivity]|].
    repeat split; [constructor; [apply Hsame|constructor]|]. intros _. unfold clones. cbn. rewrite Hs. reflexivity.
  - apply (ends_prim good told [] _ _ _ _ (Hck _)). intros k' e' He' [Hc Hk]. apply ends_ret. cbn [app].
    split; [|intros n' [= <-]; exact I]. exists [((s_key s, s_value s), VTransformed v r)], [[(k', v)]].
    split; [apply (settled_op see vred tcost e _ [e'] [] Hs); [intros ? [<-|[]]; eauto|]|].
    { unfold clones. cbn. rewrite Hc. reflexivity. }
    repeat split; [constructor; [|constructor]; eapply Hnew; [right; left; reflexivity|exact Hk]|discriminate].
  - apply ends_ret. split; [|discriminate]. exists [((s_key s, s_value s), VDropped r)], [[]].
    split; [apply (settled_op see vred tcost e _ [] [] Hs); [intros ? []|reflexivity]|].
    repeat split; [constructor; [apply Hdrop|constructor]|discriminate].
Qed.

(** One entry in front of a list done. *)
Lemma front k v o es on r u t out cs e e' x rest lr : done es on r u t ->
  see e = ItOp ((k, v), o) -> vred ((k, v), o) = lr -> (forall c, In c cs -> exists z, see c = ItClone z) ->
  Permutation (clones see cs ++ rest) (tcost ((k, v), o)) -> becomes (e :: cs) ((k, v), o) out -> see e' = ItReduce lr r x ->
  (kept ((k, v), o) && u = true -> clones see cs = []) ->
  exists is outs, settled (t ++ e :: cs ++ [e']) is x /\ map fst is = (k, v) :: es /\ Forall2 (becomes (t ++ e :: cs ++ [e'])) is outs /\
    out ++ ovisit on = concat outs /\ kept ((k, v), o) && u = forallb kept is /\
    (kept ((k, v), o) && u = true -> clones see (t ++ e :: cs ++ [e']) = []).
Proof.
  intros (is & outs & D1 & D2 & D3 & D4 & D5 & D6) He <- Hcs HP Hb He' Hno.
  exists (((k, v), o) :: is), (out :: outs). split; [|split; [|split; [|split; [|split]]]].
  - change (((k, v), o) :: is) with ([((k, v), o)] ++ is). eapply settled_perm; [|eapply settled_reduce; [eapply settled_op; eassumption|exact D1|exact He']].
    rewrite app_assoc. change (e :: cs ++ [e']) with ((e :: cs) ++ [e']). rewrite (app_assoc t). apply Permutation_app_tail. apply Permutation_app_comm.
  - cbn [map fst]. rewrite D2. reflexivity.
  - constructor.
    + eapply Hmono; [|exact Hb]. intros y [<-|Hy]; rewrite in_app_iff; right; [left; reflexivity|right; apply in_or_app; auto].
    + eapply becomes_mono; [exact Hmono| |exact D3]. intros y Hy. apply in_or_app. auto.
  - cbn [concat]. rewrite D4. reflexivity.
  - cbn [forallb]. rewrite D5. reflexivity.
  - intros Hu. specialize (Hno Hu). apply andb_prop in Hu. rewrite clones_app, D6 by apply Hu. cbn [app].
    change (e :: cs ++ [e']) with ([e] ++ cs ++ [e']). rewrite !clones_app, Hno. unfold clones. cbn. rewrite He, He'. reflexivity.
Qed.

Lemma l_next_visit (l : lnode K V) : l_visit l = (l_key l, l_value l) :: match l_next l with NL n => l_visit n | NS s => s_visit s end.
Proof. destruct l; reflexivity. Qed.

(** The rest of a list, as a node. *)
Definition lrest (l : lnode K V) : mnode K V := next_mnode (l_next l).

Ltac clone_key k' e Hc Hk := apply (ends_prim good told [] _ _ _ _ (Hck _)); intros k' e _ [Hc Hk].
Ltac clone_value v' e Hc Hk := apply (ends_prim good told [] _ _ _ _ (Hcv _)); intros v' e _ [Hc Hk].
Ltac reduce x e He := apply (ends_prim good told [] _ _ _ _ (Hred _ _)); intros x e _ He; apply ends_ret.

Lemma al_result_ends l o next t e : lok l -> ldone (lrest l) t next -> see e = ItOp ((l_key l, l_value l), o) ->
  match next with TN (NRC _ _) => False | _ => True end ->
  gs good (al_transform_result red ck cv l o next) (ends [] (fun t' y => ldone (ML l) (t ++ [e] ++ t') y /\ match y with TN (NRC _ _) => False | _ => True end)).
Proof.
  intros Hl [HD HL] He HN.
  assert (Hn : match l_next l with NL n => lok n | NS _ => True end) by (destruct l; cbn in *; tauto).
  assert (HV : m_visit (lrest l) = match l_next l with NL n => l_visit n | NS s => s_visit s end) by (unfold lrest; destruct (l_next l); reflexivity).
  rewrite HV in HD. set (es := match l_next l with NL n => l_visit n | NS s => s_visit s end) in *.
  assert (HG : forall o' on r u out cs rest lr e' x y, done es on r u t -> o = o' -> vred ((l_key l, l_value l), o') = lr ->
    (forall c, In c cs -> exists z, see c = ItClone z) -> Permutation (clones see cs ++ rest) (tcost ((l_key l, l_value l), o')) ->
    becomes (e :: cs) ((l_key l, l_value l), o') out -> see e' = ItReduce lr r x ->
    ovisit (tout (ML l) y) = out ++ ovisit on -> tred y = x -> tu y = kept ((l_key l, l_value l), o') && u -> (kept ((l_key l, l_value l), o') && u = true -> clones see cs = []) ->
    (forall n', tout (ML l) y = Some n' -> leafy n') ->
    ldone (ML l) (t ++ e :: cs ++ [e']) y).
  { intros o' on r u out cs rest lr e' x y HD' <- Hlr Hcs HP Hb He' Hvis Hx Hu Hno Hlf. split; [|exact Hlf].
    destruct (front _ _ _ _ _ _ _ _ _ _ _ _ _ _ _ HD' He Hlr Hcs HP Hb He' Hno) as (is & outs & F1 & F2 & F3 & F4 & F5 & F6).
    exists is, outs. rewrite Hx, Hvis, Hu. split; [exact F1|]. split; [|auto]. rewrite F2. symmetry. apply (l_next_visit l). }
  assert (Hsm : forall c, In c ([] : trace) -> exists z, see c = ItClone z) by (intros c []).
  destruct o as [lr|lv lr|lr]; cbn [al_transform_result].
  - destruct next as [rr|[c rr|n rr|s rr|rr]]; [|contradiction|..]; cbn [tout nnode tred tu nred] in HD, HL.
    + reduce x e' He'. split; [|exact I]. rewrite app_nil_r. cbn [app].
      eapply (HG _ _ _ _ [(l_key l, l_value l)] [] [kc (l_key l); vc (l_value l)] lr e' x); try eassumption; try reflexivity; try discriminate; auto.
      * transitivity (l_visit l); [reflexivity|]. rewrite (l_next_visit l). fold es. cbn [app ovisit]. rewrite HV. reflexivity.
      * intros n' [= <-]. exact Hl.
    + clone_key k' e1 Hc1 Hk1. clone_value v' e2 Hc2 Hk2. reduce x e' He'. split; [|exact I]. rewrite app_nil_r. cbn [app].
      eapply (HG _ _ _ _ [(k', v')] [e1; e2] [] lr e' x); try eassumption; try reflexivity; try discriminate.
      * intros c [<-|[<-|[]]]; eauto.
      * unfold clones. cbn. rewrite Hc1, Hc2. reflexivity.
      * eapply Hclone; [right; left; reflexivity|exact Hk1|right; right; left; reflexivity|exact Hk2].
      * intros n' [= <-]. cbn. split; [reflexivity|]. apply (HL (ML n) eq_refl).
    + clone_key k' e1 Hc1 Hk1. clone_value v' e2 Hc2 Hk2. reduce x e' He'. split; [|exact I]. rewrite app_nil_r. cbn [app].
      eapply (HG _ _ _ _ [(k', v')] [e1; e2] [] lr e' x); try eassumption; try reflexivity; try discriminate.
      * intros c [<-|[<-|[]]]; eauto.
      * unfold clones. cbn. rewrite Hc1, Hc2. reflexivity.
      * eapply Hclone; [right; left; reflexivity|exact Hk1|right; right; left; reflexivity|exact Hk2].
      * intros n' [= <-]. reflexivity.
    + clone_key k' e1 Hc1 Hk1. clone_value v' e2 Hc2 Hk2. reduce x e' He'. split; [|exact I]. rewrite app_nil_r. cbn [app].
      eapply (HG _ _ _ _ [(k', v')] [e1; e2] [] lr e' x); try eassumption; try reflexivity; try discriminate.
      * intros c [<-|[<-|[]]]; eauto.
      * unfold clones. cbn. rewrite Hc1, Hc2. reflexivity.
      * eapply Hclone; [right; left; reflexivity|exact Hk1|right; right; left; reflexivity|exact Hk2].
      * intros n' [= <-]. exact I.
  - destruct next as [rr|[c rr|n rr|s rr|rr]]; [|contradiction|..]; cbn [tout nnode tred tu nred] in HD, HL;
      clone_key k' e1 Hc1 Hk1; reduce x e' He'; (split; [|exact I]); rewrite app_nil_r; cbn [app];
      eapply (HG _ _ _ _ [(k', lv)] [e1] [] lr e' x); try eassumption; try reflexivity; try discriminate;
      try (intros c [<-|[]]; eauto; fail);
      try (unfold clones; cbn; rewrite Hc1; reflexivity);
      try (eapply Hnew; [right; left; reflexivity|exact Hk1]).
    + cbn [tout nnode ovisit]. rewrite HV. cbn [m_visit]. rewrite l_next_visit. unfold l_new. destruct (l_next l); reflexivity.
    + intros n' [= <-]. cbn. unfold l_new. destruct (l_next l); cbn; auto.
    + intros n' [= <-]. cbn. split; [reflexivity|]. apply (HL (ML n) eq_refl).
    + intros n' [= <-]. reflexivity.
    + intros n' [= <-]. exact I.
  - destruct next as [rr|[c rr|n rr|s rr|rr]]; [|contradiction|..]; cbn [tout nnode tred tu nred] in HD, HL;
      reduce x e' He'; (split; [|try exact I; destruct (l_next l); exact I]); rewrite app_nil_r; cbn [app];
      eapply (HG _ _ _ _ [] [] [] lr e' x); try eassumption; try reflexivity; try discriminate; auto.
    + cbn [app ovisit]. rewrite HV. unfold es. destruct (l_next l); reflexivity.
    + destruct (l_next l); reflexivity.
    + destruct (l_next l); reflexivity.
    + destruct (l_next l); intros n' [= <-]; [exact Hn|exact I].
Qed.

Lemma ldone_leaf n t c r : ldone n t (TN (NRC c r)) -> False.
Proof. intros [_ H]. exact (H (MC c) eq_refl). Qed.

Lemma al_transform_ends l : lok l -> gs good (al_transform red ck cv (EGeneric f) l) (ends (rev (l_visit l)) (ldone (ML l))).
Proof.
  induction l as [k v n IH sz|k v s sz]; intros Hl; cbn [al_transform]; (match goal with |- gs _ _ (AskTP.ends _ _ (ldone ?m)) => apply ends_weak with (P := fun t y => ldone m t y /\ match y with TN (NRC _ _) => False | _ => True end); [|tauto] end).
  - cbn [l_visit rev]. eapply ends_bind; [apply IH; apply Hl|]. intros t y Ht Hy. cbn beta in Hy.
    cbn [etcall]. apply (ends_prim good told _ _ _ _ _ (Hop _)). intros o e He Hs.
    apply (al_result_ends (LNL k v n sz) o y t e Hl Hy Hs). destruct y as [|[]]; auto. eapply ldone_leaf; eassumption.
  - change (rev (l_visit (LNS k v s sz))) with (s_visit s ++ [(k, v)]). eapply ends_bind; [apply as_transform_ends|]. intros t y Ht Hy.
    cbn [etcall]. apply (ends_prim good told _ _ _ _ _ (Hop _)). intros o e He Hs.
    apply (al_result_ends (LNS k v s sz) o y t e Hl Hy Hs). destruct y as [|[]]; auto. eapply ldone_leaf; eassumption.
Qed.

Lemma done_leaf d p n t y : leaf d p (m_visit n) -> Forall good t -> ldone n t y ->
  done (m_visit n) (tout n y) (tred y) (tu y) t /\ (forall n', tout n y = Some n' -> shaped d p n').
Proof.
  intros Hn Ht [HD HL]. split; [exact HD|]. intros n' Hn'. apply leafy_shaped; [apply HL; assumption|].
  destruct HD as (is & outs & D1 & D2 & D3 & D4 & D5 & D6). rewrite Hn' in D4. cbn [ovisit] in D4. rewrite D4. eapply Hleaf; eassumption.
Qed.

Lemma am_transform_ends st n : forall d p, shaped d p n ->
  gs good (am_transform def red ck cv st (EGeneric f) n) (ends (back n)
    (fun t y => done (m_visit n) (tout n y) (tred y) (tu y) t /\ (forall n', tout n y = Some n' -> shaped d p n'))).
Proof.
  induction n as [bits values x IH|l|s] using mnode_ind'; intros d p Hs; cbn [am_transform].
  - rewrite Forall_forall in IH. inversion Hs as [| |? ? ? ? ? Hd Hok Hne Hx Hch]; subst. rewrite <- (app_nil_r (back _)).
    eapply ends_bind; [eapply (arun_ends good see told vred tcost kept becomes leaf leaf deep def red Hdef Hred Hmono Hleaf Hup d p bits values Hok)|].
    + intros lo i tr a Hlo Hi Ht HI. unfold ac_transform_step.
      eapply ends_lift; [apply bat_bit_index_slot; assumption|]. destruct (getv bits values i) as [c|] eqn:Hg; cbn [oback].
      * rewrite <- (app_nil_r (back c)). eapply ends_bind; [exact (IH c (getv_in _ _ _ _ Hg) _ _ (Hch i c Hg))|].
        intros t y Hgt [HD Hsh]. cbn beta in HD, Hsh.
        assert (Hsl : m_visit c = slot bits values i) by (unfold slot; rewrite Hg; reflexivity). rewrite Hsl in HD.
        destruct y as [r|n]; cbn [tout tred tu] in HD, Hsh.
        -- apply (apush_ends good see told vred tcost kept becomes leaf leaf deep red Hred Hmono Hleaf Hup d p bits values lo i tr t a c r true); auto.
        -- rewrite <- (app_nil_r []). eapply ends_bind; [apply (apush_new_ends good see told vred tcost kept becomes leaf leaf deep red Hred Hmono Hleaf Hup d p bits values lo i tr t a n false); auto|].
           intros t' a' Ht' HI'. apply ends_ret. rewrite app_nil_r. exact HI'.
      * apply ends_ret. rewrite app_nil_r. apply (inv_skip good see vred tcost kept becomes leaf leaf deep Hmono Hleaf Hup); assumption.
    + intros t a Ht HI. cbn beta in HI.
      assert (HV : m_visit (MC (BIA bits values (lenN (concat (map m_visit values))))) = flat_map (slot bits values) (range 0 (max_ones fw))) by (apply visit_C; assumption).
      destruct (a_ul a) eqn:Hu.
      * apply ends_ret. rewrite app_nil_r. destruct HI as (_ & _ & _ & _ & is & outs & H5 & H6 & H7 & H8 & H9 & H10).
        split; [|intros n' [= <-]; exact Hs]. exists is, (map (fun i => [fst i]) is). cbn [tred tu tout ovisit]. rewrite HV, <- H6.
        split; [exact H5|]. split; [reflexivity|]. split; [|split; [|split; [rewrite <- H9; symmetry; exact Hu|intros _; apply H10; exact Hu]]].
        -- rewrite Hu in H9. symmetry in H9. clear - Hsame H9. induction is as [|[x o] is IH]; constructor.
           ++ cbn in H9. destruct o; try discriminate. apply Hsame.
           ++ apply IH. apply andb_prop in H9. apply H9.
        -- clear. induction is; cbn; congruence.
      * destruct (finish_shaped see vred tcost kept becomes leaf deep Hup d p bits values Hd _ _ _ HI) as (n & Hn & Hr & Hv & Hsh).
        eapply gs_weak; [|intros t' o Ho; exact Ho]. rewrite Hn. cbn [bind lift]. apply ends_ret. rewrite app_nil_r.
        destruct HI as (_ & _ & _ & _ & is & outs & H5 & H6 & H7 & H8 & H9 & H10).
        split; [|exact Hsh]. exists is, outs. cbn [tred tu tout ovisit]. rewrite HV, <- H6, Hr, Hv, H8, <- H9. rewrite Hu. pose proof (fun h : false = true => H10 (eq_trans Hu h)). auto 8.
  - inversion Hs; subst. eapply ends_weak; [apply al_transform_ends; assumption|]. intros t y Ht Hy. apply done_leaf; assumption.
  - inversion Hs; subst. eapply ends_weak; [apply as_transform_ends|]. intros t y Ht Hy. apply done_leaf; assumption.
Qed.

End Transform.
