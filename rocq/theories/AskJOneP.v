(** transform and transmute of one side of a joint operation, whatever the
    client's code answers. *)
From Coq Require Import NArith Arith List Bool Lia ZifyBool ZifyN ZifyNat Permutation.
From Verif Require Import Base Words WordsP Flag FlagP Bia BiaP Node Inv InsertP Api Trans Transform Joint Profile Eff EffP EffTP EffApi Ask AskP AskHashP AskT SpecAskT JoinP LoopP TransformP
  PermP AskTP AskTTP AskJ AskJP.
Import ListNotations.
Open Scope N_scope.

Definition vr {V R} (o : vres V R) : R := match o with VUnchanged r | VTransformed _ r | VDropped r => r end.
Definition kr {S X R} (o : kres S X R) : R := match o with KTransmuted _ _ r | KDropped r => r end.
Definition kout {S X R} (o : kres S X R) : list (S * X) := match o with KTransmuted k v _ => [(k, v)] | KDropped _ => [] end.

(** * The side that is transformed *)
Record tside {E : Env} {Q : Type} {A : Q -> Type} {K V R I C U : Type} (w : world A K V R I C U) : Type := Tside {
  t_inj : K * V -> U;
  (** The item of an entry and what the closure answered. *)
  t_vi : I -> K * V -> vres V R -> Prop;
  t_f : K * V -> prog A (vres V R);
  t_ck : K -> prog A K;
  t_cv : V -> prog A V;
  t_kc : K -> C;
  t_vc : V -> C;
  t_Kc : event (A := A) -> K -> K -> Prop;
  t_Vc : event (A := A) -> V -> V -> Prop;
  t_calls_f : forall x, calls (w_good w) (w_told w) (t_f x) [t_inj x] (fun o e => exists i, w_see w e = ItOp i /\ t_vi i x o /\
    (forall t, In e t -> w_called w t i) /\ (forall h, w_has w h x -> w_ihas w h i));
  t_calls_ck : forall k, calls (w_good w) (w_told w) (t_ck k) [] (fun k' e => w_see w e = ItClone (t_kc k) /\ t_Kc e k k');
  t_calls_cv : forall v, calls (w_good w) (w_told w) (t_cv v) [] (fun v' e => w_see w e = ItClone (t_vc v) /\ t_Vc e v v');
  t_rof : forall i x o, t_vi i x o -> w_rof w i = vr o;
  t_cost : forall i x o, t_vi i x o -> exists rest, Permutation
    (match o with VUnchanged _ => [t_kc (fst x); t_vc (snd x)] | VTransformed _ _ => [t_kc (fst x)] | VDropped _ => [] end ++ rest) (w_cost w i);
  t_same : forall t i x r, w_called w t i -> t_vi i x (VUnchanged r) -> w_becomes w t i [x];
  t_clone : forall t i k v r k' v' e e', w_called w t i -> t_vi i (k, v) (VUnchanged r) -> In e t -> t_Kc e k k' -> In e' t -> t_Vc e' v v' ->
    w_becomes w t i [(k', v')];
  t_new : forall t i k v v' r k' e, w_called w t i -> t_vi i (k, v) (VTransformed v' r) -> In e t -> t_Kc e k k' -> w_becomes w t i [(k', v')];
  t_drop : forall t i x r, w_called w t i -> t_vi i x (VDropped r) -> w_becomes w t i []
}.
Arguments t_inj {E Q A K V R I C U w}.
Arguments t_vi {E Q A K V R I C U w}.
Arguments t_f {E Q A K V R I C U w}.
Arguments t_ck {E Q A K V R I C U w}.
Arguments t_cv {E Q A K V R I C U w}.
Arguments t_kc {E Q A K V R I C U w}.
Arguments t_vc {E Q A K V R I C U w}.
Arguments t_Kc {E Q A K V R I C U w}.
Arguments t_Vc {E Q A K V R I C U w}.
Arguments t_calls_f {E Q A K V R I C U w}.
Arguments t_calls_ck {E Q A K V R I C U w}.
Arguments t_calls_cv {E Q A K V R I C U w}.
Arguments t_rof {E Q A K V R I C U w}.
Arguments t_cost {E Q A K V R I C U w}.
Arguments t_same {E Q A K V R I C U w}.
Arguments t_clone {E Q A K V R I C U w}.
Arguments t_new {E Q A K V R I C U w}.
Arguments t_drop {E Q A K V R I C U w}.

Section T.
Context {E : Env} {Q : Type} {A : Q -> Type} {K V R I C U : Type} (w : world A K V R I C U) (ts : tside w).
Notation event := (event (A := A)).
Notation trace := (list event).
Implicit Types tr t : trace.
Notation good := (w_good w).
Notation see := (w_see w).
Notation told := (w_told w).
Notation red := (w_red w).
Notation ck := (t_ck ts).
Notation cv := (t_cv ts).
Notation none := (none w).
Notation jfull := (jfull w).
Notation hdone := (hdone w).
Notation ldone := (ldone w).
Notation sdone := (sdone w).
Notation shaped := (shaped (leaf_of (w_has w) (w_lies w)) (w_deep w)).

(** The entry [x] was answered by [o], after the calls [n] that told nothing. *)
Definition vsaid (h : N) (n : trace) (e : event) (i : I) (x : K * V) (o : vres V R) : Prop :=
  Forall none n /\ see e = ItOp i /\ t_vi ts i x o /\ (forall t, incl (n ++ [e]) t -> w_called w t i) /\ w_ihas w h i /\ Forall good (n ++ [e]).

Lemma incl_cs (n : trace) e cs : incl (n ++ [e]) (n ++ e :: cs).
Proof. intros x Hx. apply in_app_or in Hx. apply in_or_app. destruct Hx as [Hx|[<-|[]]]; [auto|right; left; reflexivity]. Qed.
Lemma good_cs (n : trace) e cs : Forall good (n ++ [e]) -> Forall good cs -> Forall good (n ++ e :: cs).
Proof. intros H1 H2. apply Forall_app in H1. destruct H1 as [H1 H3]. apply Forall_app. split; [assumption|]. constructor; [inversion H3|]; assumption. Qed.
Lemma in_cs (n : trace) e cs c : In c cs -> In c (n ++ e :: cs).
Proof. intros H. apply in_or_app. right. right. assumption. Qed.

Lemma v_same h n e i x r : vsaid h n e i x (VUnchanged r) -> hdone h [x] r (n ++ [e]).
Proof.
  intros (H1 & H2 & H3 & H4 & H5 & H6). pose proof (t_rof ts _ _ _ H3) as Hr. cbn in Hr. rewrite <- Hr.
  eapply (hd_op w h n e i [] (w_cost w i)); try assumption; [intros c []|reflexivity|].
  eapply (t_same ts); [|exact H3]. apply H4. apply incl_refl.
Qed.
Lemma v_drop h n e i x r : vsaid h n e i x (VDropped r) -> hdone h [] r (n ++ [e]).
Proof.
  intros (H1 & H2 & H3 & H4 & H5 & H6). pose proof (t_rof ts _ _ _ H3) as Hr. cbn in Hr. rewrite <- Hr.
  eapply (hd_op w h n e i [] (w_cost w i)); try assumption; [intros c []|reflexivity|].
  eapply (t_drop ts); [|exact H3]. apply H4. apply incl_refl.
Qed.
Lemma v_new h n e i k v v' r k' e1 : vsaid h n e i (k, v) (VTransformed v' r) -> good e1 -> see e1 = ItClone (t_kc ts k) -> t_Kc ts e1 k k' ->
  hdone h [(k', v')] r (n ++ [e; e1]).
Proof.
  intros (H1 & H2 & H3 & H4 & H5 & H6) G1 G2 G3. pose proof (t_rof ts _ _ _ H3) as Hr. cbn in Hr. rewrite <- Hr.
  destruct (t_cost ts _ _ _ H3) as (rest & Hc).
  eapply (hd_op w h n e i [e1] rest); try assumption.
  - intros c [<-|[]]. eauto.
  - rewrite <- Hc. unfold clones. cbn. rewrite G2. reflexivity.
  - eapply (t_new ts); [|exact H3| |exact G3]; [apply H4, incl_cs|apply in_cs; left; reflexivity].
  - apply good_cs; [assumption|]. repeat constructor. assumption.
Qed.
Lemma v_clone h n e i k v r k' v' e1 e2 : vsaid h n e i (k, v) (VUnchanged r) -> good e1 -> see e1 = ItClone (t_kc ts k) -> t_Kc ts e1 k k' ->
  good e2 -> see e2 = ItClone (t_vc ts v) -> t_Vc ts e2 v v' -> hdone h [(k', v')] r (n ++ [e; e1; e2]).
Proof.
  intros (H1 & H2 & H3 & H4 & H5 & H6) G1 G2 G3 F1 F2 F3. pose proof (t_rof ts _ _ _ H3) as Hr. cbn in Hr. rewrite <- Hr.
  destruct (t_cost ts _ _ _ H3) as (rest & Hc).
  eapply (hd_op w h n e i [e1; e2] rest); try assumption.
  - intros c [<-|[<-|[]]]; eauto.
  - rewrite <- Hc. unfold clones. cbn. rewrite G2, F2. reflexivity.
  - eapply (t_clone ts); [|exact H3| |exact G3| |exact F3]; [apply H4, incl_cs|apply in_cs; left; reflexivity|apply in_cs; right; left; reflexivity].
  - apply good_cs; [assumption|]. repeat constructor; assumption.
Qed.

Lemma vsaid_call h x o e i : good e -> see e = ItOp i -> t_vi ts i x o -> (forall t, In e t -> w_called w t i) -> w_ihas w h i -> vsaid h [] e i x o.
Proof. intros H1 H2 H3 H4 H5. repeat split; try assumption; [constructor| |repeat constructor; assumption]. intros t Ht. apply H4, Ht. left. reflexivity. Qed.

(** An unchanged leaf. *)
Lemma as_transform_j h s : w_has w h (s_key s, s_value s) ->
  jfull [t_inj ts (s_key s, s_value s)] (as_transform ck (EGeneric (t_f ts)) s) (fun t y => ldone h (tout (MS s) y) (tred y) t).
Proof.
  intros Hh. unfold as_transform. cbn [etcall]. eapply (jf_call w _ _ []); [apply (t_calls_f ts)|reflexivity|]. intros o e He (i & H1 & H2 & H3 & H4).
  pose proof (vsaid_call h _ _ _ _ He H1 H2 H3 (H4 h Hh)) as HS. destruct o as [r|v r|r].
  - apply jf_ret. split; [apply (v_same _ _ _ _ _ _ HS)|intros n' [= <-]; exact Logic.I].
  - eapply jf_quiet; [apply (t_calls_ck ts)|]. intros k' e1 G1 [G2 G3]. apply jf_ret.
    split; [apply (v_new _ _ _ _ _ _ _ _ _ _ HS G1 G2 G3)|intros n' [= <-]; exact Logic.I].
  - apply jf_ret. split; [apply (v_drop _ _ _ _ _ _ HS)|discriminate].
Qed.

Lemma lrest_visit (l : lnode K V) : l_visit l = (l_key l, l_value l) :: m_visit (lrest l).
Proof. destruct l; reflexivity. Qed.
Lemma lrest_leafy (l : lnode K V) : lok l -> leafy (lrest l).
Proof. destruct l; cbn; tauto. Qed.
Lemma l_new_visit (k : K) (v : V) nx : l_visit (l_new k v nx) = (k, v) :: m_visit (next_mnode nx).
Proof. destruct nx; reflexivity. Qed.
Lemma l_new_leafy (k : K) (v : V) nx : leafy (next_mnode nx) -> leafy (ML (l_new k v nx)).
Proof. destruct nx; cbn; auto. Qed.

Lemma al_result_j h l o next t n e i : lok l -> ldone h (tout (lrest l) next) (tred next) t -> vsaid h n e i (l_key l, l_value l) o ->
  jfull [] (al_transform_result red ck cv l o next) (fun t' y => ldone h (tout (ML l) y) (tred y) (t ++ (n ++ [e]) ++ t')).
Proof.
  intros Hl [HD HL] HS. pose proof (lrest_leafy l Hl) as Hn.
  assert (HN : match next with TN (NRC _ _) => False | _ => True end) by (destruct next as [|[]]; auto; exact (HL _ eq_refl)).
  assert (HU : forall o' cs out lr x e' y, hdone h out lr (n ++ e :: cs) -> see e' = ItReduce lr (tred next) x ->
    ovisit (tout (ML l) y) = out ++ ovisit (tout (lrest l) next) -> tred y = x -> (forall n', tout (ML l) y = Some n' -> leafy n') ->
    o = o' -> ldone h (tout (ML l) y) (tred y) (t ++ (n ++ [e]) ++ cs ++ [e'])).
  { intros o' cs out lr x e' y H1 H2 H3 H4 H5 _. split; [|exact H5]. rewrite H4. eapply hd_join; [exact H1|exact HD|exact H2|permut|].
    rewrite H3. reflexivity. }
  destruct o as [lr|lv lr|lr]; cbn [al_transform_result].
  - destruct next as [rr|[c rr|m rr|s rr|rr]]; [|contradiction|..]; cbn [tout nnode tred nred] in *.
    + eapply jf_quiet; [apply w_calls_red|]. intros x e' _ He'. apply jf_ret.
      eapply (HU _ []); [apply (v_same _ _ _ _ _ _ HS)|exact He'|apply lrest_visit|reflexivity| |reflexivity]. intros n' [= <-]. exact Hl.
    + eapply jf_quiet; [apply (t_calls_ck ts)|]. intros k' e1 G1 [G2 G3]. eapply jf_quiet; [apply (t_calls_cv ts)|]. intros v' e2 F1 [F2 F3].
      eapply jf_quiet; [apply w_calls_red|]. intros x e' _ He'. apply jf_ret.
      eapply (HU _ [e1; e2]); [apply (v_clone _ _ _ _ _ _ _ _ _ _ _ HS G1 G2 G3 F1 F2 F3)|exact He'|reflexivity|reflexivity| |reflexivity].
      intros n' [= <-]. apply (l_new_leafy _ _ (NL m)). apply (HL (ML m) eq_refl).
    + eapply jf_quiet; [apply (t_calls_ck ts)|]. intros k' e1 G1 [G2 G3]. eapply jf_quiet; [apply (t_calls_cv ts)|]. intros v' e2 F1 [F2 F3].
      eapply jf_quiet; [apply w_calls_red|]. intros x e' _ He'. apply jf_ret.
      eapply (HU _ [e1; e2]); [apply (v_clone _ _ _ _ _ _ _ _ _ _ _ HS G1 G2 G3 F1 F2 F3)|exact He'|reflexivity|reflexivity| |reflexivity].
      intros n' [= <-]. apply (l_new_leafy _ _ (NS s)). exact Logic.I.
    + eapply jf_quiet; [apply (t_calls_ck ts)|]. intros k' e1 G1 [G2 G3]. eapply jf_quiet; [apply (t_calls_cv ts)|]. intros v' e2 F1 [F2 F3].
      eapply jf_quiet; [apply w_calls_red|]. intros x e' _ He'. apply jf_ret.
      eapply (HU _ [e1; e2]); [apply (v_clone _ _ _ _ _ _ _ _ _ _ _ HS G1 G2 G3 F1 F2 F3)|exact He'|reflexivity|reflexivity| |reflexivity].
      intros n' [= <-]. exact Logic.I.
  - destruct next as [rr|[c rr|m rr|s rr|rr]]; [|contradiction|..]; cbn [tout nnode tred nred] in *;
      (eapply jf_quiet; [apply (t_calls_ck ts)|]; intros k' e1 G1 [G2 G3]; eapply jf_quiet; [apply w_calls_red|]; intros x e' _ He'; apply jf_ret;
       eapply (HU _ [e1]); [apply (v_new _ _ _ _ _ _ _ _ _ _ HS G1 G2 G3)|exact He'| |reflexivity| |reflexivity]).
    + cbn [tout nnode ovisit m_visit app]. rewrite l_new_visit. reflexivity.
    + intros n' [= <-]. apply (l_new_leafy _ _ (l_next l)). exact Hn.
    + reflexivity.
    + intros n' [= <-]. apply (l_new_leafy _ _ (NL m)). apply (HL (ML m) eq_refl).
    + reflexivity.
    + intros n' [= <-]. apply (l_new_leafy _ _ (NS s)). exact Logic.I.
    + reflexivity.
    + intros n' [= <-]. exact Logic.I.
  - destruct next as [rr|[c rr|m rr|s rr|rr]]; [|contradiction|..]; cbn [tout nnode tred nred] in *;
      (eapply jf_quiet; [apply w_calls_red|]; intros x e' _ He'; apply jf_ret;
       eapply (HU _ []); [apply (v_drop _ _ _ _ _ _ HS)|exact He'| | | |reflexivity]).
    + unfold lrest. destruct (l_next l); reflexivity.
    + destruct (l_next l); reflexivity.
    + unfold lrest in Hn. destruct (l_next l); intros n' [= <-]; exact Hn.
    + reflexivity.
    + reflexivity.
    + intros n' [= <-]. apply (HL (ML m) eq_refl).
    + reflexivity.
    + reflexivity.
    + intros n' [= <-]. exact Logic.I.
    + reflexivity.
    + reflexivity.
    + discriminate.
Qed.

Lemma al_transform_j h l : lok l -> Forall (w_has w h) (l_visit l) ->
  jfull (map (t_inj ts) (l_visit l)) (al_transform red ck cv (EGeneric (t_f ts)) l) (fun t y => ldone h (tout (ML l) y) (tred y) t).
Proof.
  induction l as [k v n IH sz|k v s sz]; intros Hl Hh; cbn [al_transform].
  - cbn [l_visit map] in *. inversion Hh as [|? ? Hk Hh']; subst. eapply (jf_cut w _ _ [t_inj ts (k, v)]); [apply IH; [apply Hl|assumption]|permut|]. intros t y Ht Hy. cbn beta in Hy.
    cbn [etcall]. eapply (jf_call w _ _ []); [apply (t_calls_f ts)|reflexivity|]. intros o e He (i & H1 & H2 & H3 & H4).
    eapply jf_weak; [apply (al_result_j h (LNL k v n sz) o y t [] e i Hl Hy)|].
    + apply vsaid_call; auto.
    + intros t' y' _ H. exact H.
  - change (l_visit (LNS k v s sz)) with ([(k, v)] ++ s_visit s) in *. apply Forall_app in Hh. destruct Hh as [Hk Hh]. inversion Hk as [|? ? Hk' _]; subst. inversion Hh as [|? ? Hs _]; subst.
    eapply (jf_cut w _ _ [t_inj ts (k, v)]); [apply (as_transform_j h s); assumption|cbn [map app s_visit]; permut|]. intros t y Ht Hy.
    cbn [etcall]. eapply (jf_call w _ _ []); [apply (t_calls_f ts)|reflexivity|]. intros o e He (i & H1 & H2 & H3 & H4).
    eapply jf_weak; [apply (al_result_j h (LNS k v s sz) o y t [] e i Hl Hy)|].
    + apply vsaid_call; auto.
    + intros t' y' _ H. exact H.
Qed.

Lemma an_transform_j h nx : hleaf (w_has w) h (next_mnode nx) ->
  jfull (map (t_inj ts) (m_visit (next_mnode nx))) (an_transform red ck cv (EGeneric (t_f ts)) nx) (fun t y => ldone h (tout (next_mnode nx) y) (tred y) t).
Proof.
  intros [H1 H2]. destruct nx as [l|s]; cbn [an_transform next_mnode] in *; [apply al_transform_j; assumption|].
  cbn [m_visit s_visit] in *. inversion H2; subst. apply as_transform_j. assumption.
Qed.

Lemma visit_slots bits (values : list (mnode K V)) x : okv (max_ones fw) bits values ->
  flat_map (fun j => ovisit (getv bits values j)) (range 0 (max_ones fw)) = m_visit (MC (BIA bits values x)).
Proof. intros H. symmetry. apply visit_C. assumption. Qed.

Lemma map_flat_map {B D F} (g : D -> F) (f : B -> list D) l : map g (flat_map f l) = flat_map (fun b => map g (f b)) l.
Proof. induction l; cbn; [reflexivity|]. rewrite map_app, IHl. reflexivity. Qed.

Lemma am_transform_j st n : forall d p, shaped d p n ->
  jfull (map (t_inj ts) (m_visit n)) (am_transform (w_def w) red ck cv st (EGeneric (t_f ts)) n) (fun t y => sdone d p (tout n y) (tred y) t).
Proof.
  induction n as [bits values x IH|l|s] using mnode_ind'; intros d p Hs; cbn [am_transform].
  - rewrite Forall_forall in IH. inversion Hs as [| |? ? ? ? ? Hd Hok Hne Hx Hch]; subst.
    rewrite <- (visit_slots bits values) by assumption. rewrite map_flat_map.
    eapply jf_cut; [apply (arun_j w d p (@a_ul _ _ _) (getv bits values))|rewrite app_nil_r; reflexivity|].
    + intros lo i tr a Hlo Hi Ht HI. unfold ac_transform_step.
      eapply jf_lift; [apply bat_bit_index_slot; assumption|]. destruct (getv bits values i) as [c|] eqn:Hg; cbn [ovisit].
      * eapply jf_cut; [exact (IH c (getv_in _ _ _ _ Hg) _ _ (Hch i c Hg))|rewrite app_nil_r; reflexivity|].
        intros t y Hgt HD. cbn beta in HD. destruct y as [r|n]; cbn [tout tred] in HD.
        -- eapply jf_weak; [apply (apush_j w d p (@a_ul _ _ _) (getv bits values) lo i tr a c r Hi HI)|].
           intros t' a' _ (e & r' & -> & He & ->). eapply jinv_grow; [assumption|assumption|exact HI|exact HD|exact He|reflexivity|].
           cbn [a_ul grow]. intros Hu. split; [exact Hu|]. symmetry. exact Hg.
        -- eapply (jf_cut w _ _ []); [apply (apush_new_j w d p (@a_ul _ _ _) (getv bits values) lo i tr a n Hi HI)|reflexivity|].
           intros t' a' _ (e & r' & -> & He & ->). apply jf_ret. rewrite app_nil_r. eapply jinv_grow; [assumption|assumption|exact HI|exact HD|exact He|reflexivity|].
           discriminate.
      * apply jf_ret. rewrite app_nil_r. apply jinv_skip; assumption.
    + intros l r s b v y H. apply andb_prop in H. exact H.
    + intros t a Ht HI. cbn beta in HI. destruct (a_ul a) eqn:Hu; cbn [lift].
      * apply jf_ret. rewrite app_nil_r. cbn [tout tred ovisit]. split; [|intros n' [= <-]; exact Hs].
        eapply jinv_kept; [exact HI|exact Hu|apply visit_slots; assumption].
      * destruct (finish_j w d p Hd _ _ _ _ HI) as (n & Hn & Hsd). rewrite Hn. cbn [bind lift]. apply jf_ret. rewrite app_nil_r. exact Hsd.
  - inversion Hs as [|? ? ? Hl (h & H1 & H2)|]; subst. eapply jf_weak; [apply (al_transform_j h); assumption|]. intros t y Ht Hy. eapply l_s_done; eassumption.
  - inversion Hs as [? ? ? (h & H1 & H2)| |]; subst. inversion H1; subst. eapply jf_weak; [apply (as_transform_j h); assumption|]. intros t y Ht Hy. eapply l_s_done; eassumption.
Qed.

End T.

(** * A side that is transmuted *)
Record mside {E : Env} {Q : Type} {A : Q -> Type} {S X R I C U : Type} (w : world A S X R I C U) (K V : Type) : Type := Mside {
  m_inj : K * V -> U;
  m_has : N -> K * V -> Prop;
  m_ki : I -> kres S X R -> Prop;
  m_f : K * V -> prog A (kres S X R);
  m_calls_f : forall x, calls (w_good w) (w_told w) (m_f x) [m_inj x] (fun o e => exists i, w_see w e = ItOp i /\ m_ki i o /\
    (forall t, In e t -> w_called w t i) /\ (forall h, m_has h x -> w_ihas w h i));
  m_rof : forall i o, m_ki i o -> w_rof w i = kr o;
  m_out : forall t i o, w_called w t i -> m_ki i o -> w_becomes w t i (kout o);
  m_same : forall e h x e' h' x', w_good w e -> w_good w e' -> w_tells w e h x -> w_tells w e' h' x' -> proj1_sig x = proj1_sig x' ->
    forall y, m_has h y -> m_has h' y
}.
Arguments m_inj {E Q A S X R I C U w K V}.
Arguments m_has {E Q A S X R I C U w K V}.
Arguments m_ki {E Q A S X R I C U w K V}.
Arguments m_f {E Q A S X R I C U w K V}.
Arguments m_calls_f {E Q A S X R I C U w K V}.
Arguments m_rof {E Q A S X R I C U w K V}.
Arguments m_out {E Q A S X R I C U w K V}.
Arguments m_same {E Q A S X R I C U w K V}.

Section M.
Context {E : Env} {Q : Type} {A : Q -> Type} {S X R I C U : Type} (w : world A S X R I C U).
Notation event := (event (A := A)).
Notation trace := (list event).
Implicit Types tr t : trace.
Notation good := (w_good w).
Notation see := (w_see w).
Notation told := (w_told w).
Notation red := (w_red w).
Notation none := (none w).
Notation jfull := (jfull w).
Notation hdone := (hdone w).
Notation ldone := (ldone w).
Notation sdone := (sdone w).

(** An entry was answered by [o], after the calls [n] that told nothing. *)
Definition ksaid (h : N) (n : trace) (e : event) (i : I) (o : kres S X R) : Prop :=
  Forall none n /\ see e = ItOp i /\ w_rof w i = kr o /\ w_becomes w (n ++ [e]) i (kout o) /\ w_ihas w h i /\ Forall good (n ++ [e]).

Lemma k_said h n e i o : ksaid h n e i o -> hdone h (kout o) (kr o) (n ++ [e]).
Proof.
  intros (H1 & H2 & H3 & H4 & H5 & H6). rewrite <- H3.
  eapply (hd_op w h n e i [] (w_cost w i)); try assumption; [intros c []|reflexivity].
Qed.

Lemma al_mresult_j h o next t n e i : ldone h (nnode next) (nred next) t -> ksaid h n e i o ->
  jfull [] (al_transmute_result red o next) (fun t' y => ldone h (nnode y) (nred y) (t ++ (n ++ [e]) ++ t')).
Proof.
  intros [HD HL] HS. apply k_said in HS.
  destruct o as [lk lv lr|lr]; cbn [al_transmute_result]; destruct next as [c rr|m rr|s rr|rr]; cbn [nnode nred kout kr] in *;
    try (exfalso; exact (HL _ eq_refl));
    (eapply jf_quiet; [apply w_calls_red|]; intros x e' _ He'; apply jf_ret;
     split; [eapply hd_join; [exact HS|exact HD|exact He'|permut|reflexivity]|]; try discriminate; intros n' [= <-]; cbn; auto).
  - split; [reflexivity|]. apply (HL (ML m) eq_refl).
  - apply (HL (ML m) eq_refl).
Qed.

Section Side.
Context {K V : Type} (ms : mside w K V).
Notation shapedK := (shaped (leaf_of (m_has ms) (w_lies w)) (w_deep w)).

Lemma ksaid_call h o e i : good e -> see e = ItOp i -> m_ki ms i o -> (forall t, In e t -> w_called w t i) -> w_ihas w h i -> ksaid h [] e i o.
Proof.
  intros H1 H2 H3 H4 H5. split; [constructor|]. split; [assumption|]. split; [apply (m_rof ms); assumption|]. split; [|split; [assumption|repeat constructor; assumption]].
  apply (m_out ms); [|assumption]. apply H4. left. reflexivity.
Qed.

Lemma as_transmute_j h s : m_has ms h (s_key s, s_value s) ->
  jfull [m_inj ms (s_key s, s_value s)] (as_transmute (EMGeneric (m_f ms)) s) (fun t y => ldone h (nnode y) (nred y) t).
Proof.
  intros Hh. unfold as_transmute. cbn [emcall]. eapply (jf_call w _ _ []); [apply (m_calls_f ms)|reflexivity|]. intros o e He (i & H1 & H2 & H3 & H4).
  pose proof (k_said _ _ _ _ _ (ksaid_call h _ _ _ He H1 H2 H3 (H4 h Hh))) as HS. apply jf_ret.
  destruct o as [k v r|r]; (split; [exact HS|]); [intros n' [= <-]; exact Logic.I|discriminate].
Qed.

Lemma al_transmute_j h l : Forall (m_has ms h) (l_visit l) ->
  jfull (map (m_inj ms) (l_visit l)) (al_transmute red (EMGeneric (m_f ms)) l) (fun t y => ldone h (nnode y) (nred y) t).
Proof.
  induction l as [k v n IH sz|k v s sz]; intros Hh; cbn [al_transmute].
  - cbn [l_visit map] in *. inversion Hh as [|? ? Hk Hh']; subst. eapply (jf_cut w _ _ [m_inj ms (k, v)]); [apply IH; assumption|permut|]. intros t y Ht Hy. cbn beta in Hy.
    cbn [emcall]. eapply (jf_call w _ _ []); [apply (m_calls_f ms)|reflexivity|]. intros o e He (i & H1 & H2 & H3 & H4).
    apply (al_mresult_j h o y t [] e i Hy). apply ksaid_call; auto.
  - change (l_visit (LNS k v s sz)) with ([(k, v)] ++ s_visit s) in *. apply Forall_app in Hh. destruct Hh as [Hk Hh]. inversion Hk as [|? ? Hk' _]; subst. inversion Hh as [|? ? Hs _]; subst.
    eapply (jf_cut w _ _ [m_inj ms (k, v)]); [apply (as_transmute_j h s); assumption|cbn [map app s_visit]; permut|]. intros t y Ht Hy.
    cbn [emcall]. eapply (jf_call w _ _ []); [apply (m_calls_f ms)|reflexivity|]. intros o e He (i & H1 & H2 & H3 & H4).
    apply (al_mresult_j h o y t [] e i Hy). apply ksaid_call; auto.
Qed.

Lemma an_transmute_j h nx : Forall (m_has ms h) (m_visit (next_mnode nx)) ->
  jfull (map (m_inj ms) (m_visit (next_mnode nx))) (an_transmute red (EMGeneric (m_f ms)) nx) (fun t y => ldone h (nnode y) (nred y) t).
Proof.
  intros H2. destruct nx as [l|s]; cbn [an_transmute next_mnode] in *; [apply al_transmute_j; assumption|].
  cbn [m_visit s_visit] in *. inversion H2; subst. apply as_transmute_j. assumption.
Qed.

Lemma am_transmute_j n : forall d p, shapedK d p n ->
  jfull (map (m_inj ms) (m_visit n)) (am_transmute (w_def w) red (EMGeneric (m_f ms)) n) (fun t y => sdone d p (nnode y) (nred y) t).
Proof.
  induction n as [bits values x IH|l|s] using mnode_ind'; intros d p Hs; cbn [am_transmute].
  - rewrite Forall_forall in IH. inversion Hs as [| |? ? ? ? ? Hd Hok Hne Hx Hch]; subst.
    rewrite <- (visit_slots bits values) by assumption. rewrite map_flat_map.
    eapply jf_cut; [apply (aloop_j w d p (fun _ => false) (fun _ => None))|rewrite app_nil_r; reflexivity|].
    + intros lo i tr a Hlo Hi Ht HI. unfold ac_transmute_step.
      eapply jf_lift; [apply bat_bit_index_slot; assumption|]. destruct (getv bits values i) as [c|] eqn:Hg; cbn [ovisit].
      * eapply jf_cut; [exact (IH c (getv_in _ _ _ _ Hg) _ _ (Hch i c Hg))|rewrite app_nil_r; reflexivity|].
        intros t y Hgt HD. cbn beta in HD.
        eapply jf_weak; [apply (apush_new_j w d p (fun _ => false) (fun _ => None) lo i tr a y Hi HI)|].
        intros t' a' _ (e & r' & -> & He & ->). eapply jinv_grow; [assumption|assumption|exact HI|exact HD|exact He|reflexivity|]. discriminate.
      * apply jf_ret. rewrite app_nil_r. apply jinv_skip; [assumption|reflexivity|assumption].
    + lia.
    + lia.
    + intros t a Ht HI. cbn beta in HI.
      assert (Hcnt : lenN (a_values a) =? count_ones (a_bits a) = true).
      { apply N.eqb_eq. symmetry. destruct HI as [[_ H] _]. rewrite H. reflexivity. }
      rewrite Hcnt. destruct (finish_j w d p Hd _ _ _ _ HI) as (n & Hn & Hsd). rewrite Hn. cbn [lift]. apply jf_ret. rewrite app_nil_r. exact Hsd.
  - inversion Hs as [|? ? ? Hl (h & H1 & H2)|]; subst. eapply jf_weak; [apply (al_transmute_j h); assumption|]. intros t y Ht Hy. eapply l_s_done; eassumption.
  - inversion Hs as [? ? ? (h & H1 & H2)| |]; subst. inversion H1; subst. eapply jf_weak; [apply (as_transmute_j h); assumption|]. intros t y Ht Hy. eapply l_s_done; eassumption.
Qed.

End Side.
End M.
