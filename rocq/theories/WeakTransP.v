(** transform and transmute on maps that may hold a key twice. *)
From Coq Require Import NArith Arith List Bool Lia ZifyBool ZifyN ZifyNat Permutation.
From Verif Require Import Base Words WordsP Flag FlagP Bia BiaP Node Spec SpecP Inv NodeP InsertP TrieP Api ApiP
  Trans Transform Weak LoopP SpecT TransformP Joint JointNodeP WeakP.
Import ListNotations.
Open Scope N_scope.

Section Leaf.
Context {E : Env} {K V : Type} {KK : Key K}.

Lemma leaf_ok_leafw (Q : K * V -> Prop) h n : leaf_ok n ->
  (forall e, In e (m_visit n) -> Q e /\ hash (ecls e) = h) -> leafw Q h n.
Proof.
  destruct n as [c|l|s]; cbn [leaf_ok m_visit leafw]; intros Hl Hh; [contradiction| |].
  - split; assumption.
  - exact (Hh _ (or_introl eq_refl)).
Qed.

Lemma leafw_ok (Q : K * V -> Prop) h n : leafw Q h n -> leaf_ok n.
Proof. destruct n; cbn; [auto|intros H; apply H|auto]. Qed.

Lemma leafw_mono (P Q : K * V -> Prop) h n : (forall e, P e -> Q e) -> leafw P h n -> leafw Q h n.
Proof.
  intros HPQ H. apply leaf_ok_leafw; [eapply leafw_ok; eassumption|]. intros e He.
  destruct (leafw_in _ _ _ _ H He). auto.
Qed.

Lemma finish_v {R} (g : N -> cont K V R) r :
  exists n, finish (total g r) = Ret n /\ nred n = r /\
    ovisit (nnode n) = flat_map (fun i => ovisit (cn (g i))) (range 0 (max_ones fw)).
Proof.
  destruct (g_ok g (max_ones fw)) as [Hok Hget].
  set (l := range 0 (max_ones fw)) in *.
  assert (HV : concat (map m_visit (gvals g l)) = flat_map (fun i => ovisit (cn (g i))) l) by apply gvals_visit.
  unfold finish, total. fold l. cbn [a_values a_bits a_size a_red].
  assert (Hbig : exists n, (let* b := unwrap_ok (new_bia (gbits g l) (gvals g l) (gsize g l)) in Ret (NRC b r)) = Ret n /\ nred n = r /\
    ovisit (nnode n) = flat_map (fun i => ovisit (cn (g i))) l).
  { rewrite (new_bia_ok fw) by assumption. cbn [unwrap_ok bind]. eexists. split; [reflexivity|]. auto. }
  destruct (gvals g l) as [|n0 vs] eqn:Hv.
  - eexists. split; [reflexivity|]. split; [reflexivity|]. exact HV.
  - destruct n0 as [c|l0|s0]; destruct vs as [|n1 vs]; try exact Hbig;
      (eexists; split; [reflexivity|]; split; [reflexivity|]; rewrite <- HV; cbn [nnode ovisit map concat]; rewrite app_nil_r; reflexivity).
Qed.

End Leaf.

Section TransformW.
Context {E : Env} {K V R : Type} {KK : Key K}.
Context (rdef : R) (rd : R -> R -> R).

Lemma leaf_t_w n (op : transform_op (K * V) V R) (t : tres K V R) h : (forall e, In e (m_visit n) -> hash (ecls e) = h) ->
  ovisit (tout n t) = t_map op (m_visit n) ->
  match tout n t with Some n' => leaf_ok n' | None => True end ->
  forall n', tout n t = Some n' -> leafw (fun _ => True) h n'.
Proof.
  intros Hh Hv Hl n' Hn. rewrite Hn in *. cbn [ovisit] in Hv. apply leaf_ok_leafw; [assumption|].
  intros e He. split; [exact I|]. rewrite Hv in He. revert e He. apply t_map_hash. assumption.
Qed.

Lemma m_transform_g st (f : K * V -> vres V R) (P : K * V -> Prop) d p n : ww P d p n ->
  exists t, m_transform rdef rd st (TGeneric f) n = Ret t /\ t_spec rdef rd (TGeneric f) n t /\
    (forall n', tout n t = Some n' -> ww (fun _ => True) d p n').
Proof.
  intros HW. induction HW as [d p s HP Hs|d p l h HL Hl|d p bits values x Ho Hp Hok Hne Hx Hch IH].
  - cbn [m_transform]. eexists. split; [reflexivity|]. destruct (s_transform_ok rdef rd (TGeneric f) s) as [H1 H2].
    split; [assumption|]. destruct H1 as (H1 & _). intros n' Hn. rewrite <- Hs. apply leafw_ww.
    eapply leaf_t_w; try eassumption. intros e [<-|[]]. reflexivity.
  - cbn [m_transform]. eexists. split; [reflexivity|]. destruct HL as (HL1 & HL2).
    destruct (l_transform_ok rdef rd f l HL1) as [H1 H2]. split; [assumption|]. destruct H1 as (H1 & _).
    intros n' Hn. rewrite <- Hl. apply leafw_ww. eapply leaf_t_w; try eassumption. intros e He. apply HL2. assumption.
  - cbn [m_transform].
    set (g := fun i => got (t_slot (getv bits values i) (m_transform rdef rd st (TGeneric f)))).
    assert (Hg : forall i, t_slot (getv bits values i) (m_transform rdef rd st (TGeneric f)) = Ret (g i)).
    { intros i. unfold g, t_slot. destruct (getv bits values i) as [c|] eqn:Hc; [|reflexivity].
      destruct (IH i c Hc) as (t & -> & _). reflexivity. }
    rewrite (run_ret rdef rd st _ _ g (c_transform_steps rd _ _ x _ Hok) (fun i _ => Hg i)). cbn [bind].
    assert (Hgs : forall i, match getv bits values i with
      | Some c => exists t, g i = Some (tout c t, tred t, tu t, true) /\ t_spec rdef rd (TGeneric f) c t /\
          (forall n', tout c t = Some n' -> ww (fun _ => True) (d + 1) (p + i * 2 ^ off d) n')
      | None => g i = None end).
    { intros i. pose proof (Hg i) as Hgi. unfold t_slot in Hgi. destruct (getv bits values i) as [c|] eqn:Hc; [|congruence].
      destruct (IH i c Hc) as (t & Ht & H1 & H2). rewrite Ht in Hgi. exists t. injection Hgi as Hgi. auto. }
    clearbody g. clear Hg.
    assert (Hvis : flat_map (fun i => ovisit (cn (g i))) (range 0 (max_ones fw)) = t_map (TGeneric f) (m_visit (MC (BIA bits values x)))).
    { rewrite (visit_C _ _ _ _ Hok). unfold t_map. rewrite flat_map_flat_map. apply flat_map_ext_in. intros i _.
      specialize (Hgs i). destruct (getv bits values i) as [c|].
      - destruct Hgs as (t & -> & (H1 & _) & _). exact H1.
      - rewrite Hgs. reflexivity. }
    assert (Hul : gl g (range 0 (max_ones fw)) = forallb (fun e => t_unchanged (f e)) (m_visit (MC (BIA bits values x)))).
    { rewrite (visit_C _ _ _ _ Hok). rewrite forallb_flat_map. apply forallb_ext_in. intros i _.
      specialize (Hgs i). destruct (getv bits values i) as [c|].
      - destruct Hgs as (t & -> & (_ & H2 & _) & _). exact H2.
      - rewrite Hgs. reflexivity. }
    assert (Hred : monoid rdef rd -> sred rdef rd st g = msum rdef rd (map (fun e => t_red (f e)) (m_visit (MC (BIA bits values x))))).
    { intros HM. rewrite (sred_msum _ _ HM). rewrite (visit_C _ _ _ _ Hok). rewrite map_flat_map.
      unfold greds. rewrite !(msum_flat_map _ _ HM). f_equal. apply map_ext. intros i.
      specialize (Hgs i). destruct (getv bits values i) as [c|].
      - destruct Hgs as (t & -> & (_ & _ & H3) & _). cbn [cr]. rewrite (msum_one _ _ HM). apply H3. assumption.
      - rewrite Hgs. reflexivity. }
    destruct (finish_v g (sred rdef rd st g)) as (nn & Hf & Hr & Hv).
    assert (Hw := fun H => finish_w (fun _ => True) d p g (sred rdef rd st g) Ho Hp H nn).
    assert (Hau : a_ul (total g (sred rdef rd st g)) = gl g (range 0 (max_ones fw))) by reflexivity.
    rewrite Hau. destruct (gl g (range 0 (max_ones fw))) eqn:Hu.
    + eexists. split; [reflexivity|]. split.
      * split; [|split]; cbn [tout ovisit tu tred]; [|exact Hul|exact Hred].
        symmetry in Hul. clear - Hul. unfold t_map. induction (m_visit (MC (BIA bits values x))) as [|e l IH]; [reflexivity|].
        cbn [forallb flat_map tcall] in *. apply andb_prop in Hul. destruct Hul as [He Hl]. rewrite <- IH by assumption.
        destruct (f e); try discriminate. reflexivity.
      * intros n' [= <-]. apply (ww_mono P); [auto|]. econstructor; eassumption.
    + rewrite Hf. cbn [bind]. eexists. split; [reflexivity|]. split.
      * split; [|split]; cbn [tout ovisit tu tred]; [rewrite Hv; exact Hvis|exact Hul|]. rewrite Hr. exact Hred.
      * intros n' Hn. cbn [tout] in Hn. refine (Hw _ n' Hf Hn).
        intros i n Hi Hni. specialize (Hgs i). destruct (getv bits values i) as [c|].
        -- destruct Hgs as (t & Ht & _ & H). rewrite Ht in Hni. apply H. exact Hni.
        -- rewrite Hgs in Hni. discriminate.
Qed.

Lemma t_map_fst (op : transform_op (K * V) V R) (l : list (K * V)) e : In e (t_map op l) -> exists e0 v, In e0 l /\ e = (fst e0, v).
Proof.
  intros He. apply in_flat_map in He. destruct He as (e0 & H0 & He).
  destruct (tcall op e0) as [r|v r|r]; cbn in He; [| |contradiction]; destruct He as [<-|[]].
  - exists e0, (snd e0). split; [assumption|]. destruct e0; reflexivity.
  - eauto.
Qed.

(** Any operation keeps the key objects. *)
Lemma m_transform_w st (op : transform_op (K * V) V R) (P Q : K * V -> Prop) d p n : (forall e v, P e -> Q (fst e, v)) -> ww P d p n ->
  exists t, m_transform rdef rd st op n = Ret t /\ (forall n', tout n t = Some n' -> ww Q d p n').
Proof.
  intros HPQ HW.
  assert (HQ : ww Q d p n).
  { apply (ww_mono P); [|assumption]. intros e _ He. specialize (HPQ e (snd e) He). destruct e; assumption. }
  destruct op as [f|r|r].
  - destruct (m_transform_g st f P d p n HW) as (t & Ht & (Hv & _) & Hw). exists t. split; [assumption|].
    intros n' Hn. apply (ww_mono (fun _ => True)); [|auto]. intros e He _. rewrite Hn in Hv. cbn [ovisit] in Hv. rewrite Hv in He.
    apply t_map_fst in He. destruct He as (e0 & v & H0 & ->). apply HPQ. eapply ww_P; eassumption.
  - exists (TU r). split; [destruct n as [[]|[]|]; reflexivity|]. intros n' [= <-]. assumption.
  - exists (TN (NRZ r)). split; [destruct n as [[]|[]|]; reflexivity|]. discriminate.
Qed.

Lemma n_transform_w (op : transform_op (K * V) V R) (P Q : K * V -> Prop) h n : (forall e v, P e -> Q (fst e, v)) -> leafw P h (next_mnode n) ->
  forall n', tout (next_mnode n) (n_transform rd op n) = Some n' -> leafw Q h n'.
Proof.
  intros HPQ HW n'.
  assert (HQ : leafw Q h (next_mnode n)).
  { apply (leafw_mono P); [|assumption]. intros e He. specialize (HPQ e (snd e) He). destruct e; assumption. }
  assert (HG : ovisit (tout (next_mnode n) (n_transform rd op n)) = t_map op (m_visit (next_mnode n)) ->
    match tout (next_mnode n) (n_transform rd op n) with Some n => leaf_ok n | None => True end ->
    tout (next_mnode n) (n_transform rd op n) = Some n' -> leafw Q h n').
  { intros Hv Hl Hn. rewrite Hn in *. cbn [ovisit] in Hv. apply leaf_ok_leafw; [assumption|]. intros e He.
    rewrite Hv in He. apply t_map_fst in He. destruct He as (e0 & v & H0 & ->).
    destruct (leafw_in _ _ _ _ HW H0) as [H1 H2]. split; [apply HPQ; assumption|exact H2]. }
  destruct n as [l|s]; cbn [n_transform next_mnode] in *.
  - destruct op as [f|r|r].
    + destruct (l_transform_ok rdef rd f l (proj1 HW)) as [(Hv & _) Hl]. auto.
    + destruct l; intros [= <-]; exact HQ.
    + destruct l; discriminate.
  - destruct (s_transform_ok rdef rd op s) as [(Hv & _) Hl]. auto.
Qed.

End TransformW.

Section TransmuteW.
Context {E : Env} {K V S X R : Type} {KK : Key K} {KS : Key S}.
Context (rdef : R) (rd : R -> R -> R).

Lemma m_transmute_g (f : K * V -> kres S X R) (P : K * V -> Prop) d p n : ww P d p n -> m_keeps f (m_visit n) ->
  exists t, m_transmute rdef rd (MGeneric f) n = Ret t /\ m_spec rdef rd f n t /\
    (forall n', nnode t = Some n' -> ww (fun _ => True) d p n').
Proof.
  assert (HG : forall h n t, m_keeps f (m_visit n) -> (forall e, In e (m_visit n) -> hash (ecls e) = h) ->
    m_spec rdef rd f n t -> nleaf t -> forall n' : mnode S X, nnode t = Some n' -> leafw (fun _ => True) h n').
  { intros h n0 t HK Hh [Hv _] Hl n' Hn. unfold nleaf in Hl. rewrite Hn in *. cbn [ovisit] in Hv. apply leaf_ok_leafw; [assumption|].
    intros e He. split; [exact I|]. rewrite Hv in He. revert e He. apply m_map_hash; assumption. }
  intros HW. induction HW as [d p s HP Hs|d p l h HL Hl|d p bits values x Ho Hp Hok Hne Hx Hch IH]; intros HK.
  - cbn [m_transmute]. eexists. split; [reflexivity|]. destruct (s_transmute_ok rdef rd f s) as [H1 H2].
    split; [assumption|]. intros n' Hn. rewrite <- Hs. apply leafw_ww. eapply HG; try eassumption.
    intros e [<-|[]]. reflexivity.
  - cbn [m_transmute]. eexists. split; [reflexivity|]. destruct HL as (HL1 & HL2).
    destruct (l_transmute_ok rdef rd f l HL1) as [H1 H2]. split; [assumption|].
    intros n' Hn. rewrite <- Hl. apply leafw_ww. eapply HG; try eassumption. intros e He. apply HL2. assumption.
  - cbn [m_transmute].
    assert (HKi : forall i c, getv bits values i = Some c -> m_keeps f (m_visit c)).
    { intros i c Hc. eapply m_keeps_sub; [|exact HK]. eapply visit_C_sub; eassumption. }
    set (g := fun i => got (m_slot (getv bits values i) (m_transmute rdef rd (MGeneric f)))).
    assert (Hg : forall i, m_slot (getv bits values i) (m_transmute rdef rd (MGeneric f)) = Ret (g i)).
    { intros i. unfold g, m_slot. destruct (getv bits values i) as [c|] eqn:Hc; [|reflexivity].
      destruct (IH i c Hc (HKi i c Hc)) as (t & -> & _). reflexivity. }
    pose proof (run_ret rdef rd Sequential _ _ g (c_transmute_steps rd _ _ x _ Hok) (fun i _ => Hg i)) as HRun.
    cbn [run_loop] in HRun. rewrite HRun. clear HRun. cbn [bind]. rewrite g_count.
    assert (Hgs : forall i, match getv bits values i with
      | Some c => exists t, g i = Some (nnode t, nred t, true, true) /\ m_spec rdef rd f c t /\
          (forall n', nnode t = Some n' -> ww (fun _ => True) (d + 1) (p + i * 2 ^ off d) n')
      | None => g i = None end).
    { intros i. pose proof (Hg i) as Hgi. unfold m_slot in Hgi. destruct (getv bits values i) as [c|] eqn:Hc; [|congruence].
      destruct (IH i c Hc (HKi i c Hc)) as (t & Ht & H1 & H2). rewrite Ht in Hgi. exists t. injection Hgi as Hgi. auto. }
    clearbody g. clear Hg.
    destruct (finish_v g (sred rdef rd Sequential g)) as (nn & Hf & Hr & Hv).
    assert (Hw := fun H => finish_w (fun _ => True) d p g (sred rdef rd Sequential g) Ho Hp H nn).
    rewrite Hf. eexists. split; [reflexivity|]. split; [split|].
    + rewrite Hv. rewrite (visit_C _ _ _ _ Hok). unfold m_map. rewrite flat_map_flat_map. apply flat_map_ext_in. intros i _.
      specialize (Hgs i). destruct (getv bits values i) as [c|].
      * destruct Hgs as (t & -> & (H1 & _) & _). exact H1.
      * rewrite Hgs. reflexivity.
    + intros HM. rewrite Hr. rewrite (sred_msum _ _ HM). rewrite (visit_C _ _ _ _ Hok). rewrite map_flat_map.
      unfold greds. rewrite !(msum_flat_map _ _ HM). f_equal. apply map_ext. intros i.
      specialize (Hgs i). destruct (getv bits values i) as [c|].
      * destruct Hgs as (t & -> & (_ & H3) & _). cbn [cr]. rewrite (msum_one _ _ HM). apply H3. assumption.
      * rewrite Hgs. reflexivity.
    + intros n' Hn. refine (Hw _ n' Hf Hn). intros i n Hi Hni. specialize (Hgs i). destruct (getv bits values i) as [c|].
      * destruct Hgs as (t & Ht & _ & H). rewrite Ht in Hni. apply H. exact Hni.
      * rewrite Hgs in Hni. discriminate.
Qed.

(** What a transmute makes of entries [P]. *)
Definition m_into (P : K * V -> Prop) (Q : S * X -> Prop) (op : transmute_op (K * V) S X R) : Prop :=
  forall e k v r, P e -> mcall op e = KTransmuted k v r -> Q (k, v) /\ cls k = cls (fst e).

Lemma m_transmute_w (op : transmute_op (K * V) S X R) (P : K * V -> Prop) (Q : S * X -> Prop) d p n : m_into P Q op -> ww P d p n ->
  exists t, m_transmute rdef rd op n = Ret t /\ (forall n', nnode t = Some n' -> ww Q d p n').
Proof.
  intros HPQ HW. destruct op as [f|r].
  - destruct (m_transmute_g f P d p n HW) as (t & Ht & (Hv & _) & Hw).
    { intros e k v r He Hf. apply (HPQ e k v r); [eapply ww_P; eassumption|exact Hf]. }
    exists t. split; [assumption|].
    intros n' Hn. apply (ww_mono (fun _ => True)); [|auto]. intros e He _. rewrite Hn in Hv. cbn [ovisit] in Hv. rewrite Hv in He.
    apply in_flat_map in He. destruct He as (e0 & H0 & He). destruct (f e0) as [k v r|r] eqn:Hf; [|destruct He].
    destruct He as [<-|[]]. apply (HPQ e0 k v r); [eapply ww_P; eassumption|exact Hf].
  - exists (NRZ r). split; [destruct n as [[]|[]|]; reflexivity|]. discriminate.
Qed.

Lemma n_transmute_w (op : transmute_op (K * V) S X R) (P : K * V -> Prop) (Q : S * X -> Prop) h n : m_into P Q op -> leafw P h (next_mnode n) ->
  forall n', nnode (n_transmute rd op n) = Some n' -> leafw Q h n'.
Proof.
  intros HPQ HW n' Hn. destruct op as [f|r].
  2:{ destruct n as [[]|]; discriminate. }
  assert (HG : m_spec rdef rd f (next_mnode n) (n_transmute rd (MGeneric f) n) /\ nleaf (n_transmute rd (MGeneric f) n)).
  { destruct n as [l|s]; [apply l_transmute_ok; apply HW|apply s_transmute_ok]. }
  destruct HG as [(Hv & _) Hl]. unfold nleaf in Hl. rewrite Hn in *. cbn [ovisit] in Hv.
  apply leaf_ok_leafw; [assumption|]. intros e He. rewrite Hv in He.
  apply in_flat_map in He. destruct He as (e0 & H0 & He). destruct (f e0) as [k v r|r] eqn:Hf; [|destruct He].
  destruct He as [<-|[]]. destruct (leafw_in _ _ _ _ HW H0) as [H1 H2].
  destruct (HPQ e0 k v r H1 Hf) as [H3 H4]. split; [assumption|]. unfold ecls in *. cbn [fst]. congruence.
Qed.

End TransmuteW.
